(** Derivative programs are memory safe whatever the order of evaluation. *)
From Coq Require Import ZArith List Bool Lia String Permutation.
From Verif Require Import Base Num StoreModel VecModel Spec SpecVec SpecDeriv DerivModel SpecDerivSafe
  CapProofs StoreProofs StoreOps VecProofs VecAssign DerivProofs DerivSafe OrderModel OrderProofs.
Import ListNotations.
Open Scope Z_scope.
Local Notation length := List.length (only parsing).

Section From.
Variable s : schedule.
Hypothesis Once : each_once s.
Variable d0 : dworld.
Variable z : Prop.
Local Notation base := (base d0).
Local Notation safe := (safe d0 z).
Local Notation reads := (reads z).
Local Notation ops := (ops z).
Local Notation half := (half d0).
Local Notation inv := (inv d0).
Local Notation assigned := (assigned d0).

Lemma turn_safe {A} (P : dworld -> Prop) (ok : A -> Prop) (m : nat -> M dworld A) p :
  (forall k d, In k p -> P d -> safe (m k d) (fun a d' => ok a /\ P d')) ->
  forall v d, P d -> safe (in_turn p m v d) (fun u d' => P d' /\ forall k, In k p \/ ok (v k) -> ok (u k)).
Proof.
  induction p as [|k p IH]; intros H v d Pd; cbn [in_turn].
  - cbn [ret DerivSafe.safe]. split; [exact Pd|]. intros k [[]|Hk]. exact Hk.
  - eapply safe_bind; [apply H; [now left|exact Pd]|]. intros a d1 [Oa P1].
    eapply safe_weak; [apply IH; [intros j d2 Hj; apply H; now right|exact P1]|].
    intros u d2 [P2 U]. split; [exact P2|]. intros j [[<-|Hj]|Hj]; apply U; [right|now left|right].
    + now rewrite Nat.eqb_refl.
    + destruct (Nat.eqb_spec j k); auto.
Qed.

Lemma two_reads (f : val -> val -> outcome val) (ml mr : M dworld val) p v d : Permutation p (seq 0 2) ->
  reads (ml d) d -> reads (mr d) d -> (forall a b, numb a -> numb b -> fine (f a b)) ->
  reads ((u <- in_turn p (fun k => match k with 0%nat => ml | _ => mr end) v ;; lift (f (u 0%nat) (u 1%nat))) d) d.
Proof.
  intros P Rl Rr F. destruct (turn2_cases p P) as [-> | ->]; cbn [in_turn]; rewrite dbind_assoc.
  - apply reads_then; [exact Rl|]. intros a Na. rewrite dbind_assoc. apply reads_then; [exact Rr|]. intros b Nb.
    apply reads_fine. now apply F.
  - apply reads_then; [exact Rr|]. intros b Nb. rewrite dbind_assoc. apply reads_then; [exact Rl|]. intros a Na.
    apply reads_fine. now apply F.
Qed.

Lemma dval_by_reads lm e : forall d i, base d -> ops d e -> 0 <= i -> reads (dval_by s lm e i d) d.
Proof.
  induction e as [x|ct k l|l IHl r IHr|l IHl r IHr|l IHl r IHr|l IHl r IHr|op l IHl r IHr|e IH]; intros d i B O Hi; cbn [dval_by];
    try (destruct (ops_two z d _ l r O eq_refl eq_refl) as [Ol Or]; rewrite dbind_get;
         apply two_reads; [apply (eo_val _ Once)|now apply IHl|now apply IHr|intros; now apply fine_bin]).
  - destruct (op_var _ _ _ O x) as [F Z]; [now left|]. now apply (leaf_val_reads d0).
  - destruct (op_con _ _ _ O k l) as [F Z]; [now left|]. apply (leaf_val_reads d0); auto.
  - apply reads_then; [apply IH; auto; split; apply O|]. intros a Na. apply reads_fine. now apply fine_sin.
Qed.

Lemma elem_by_reads lm e : forall d i, base d -> ops d e -> 0 <= i -> reads (inw (elem_by s lm (to_expr e) i) d) d.
Proof.
  assert (Leaf : forall d o i, base d -> full d (OD o) -> 0 <= i -> reads (inw (at_rd (OD o) i) d) d).
  { intros d o i B F Hi. unfold inw. destruct (rd_full d0 d (OD o) i B F Hi) as [[f [_ E]]|[_ [m E]]]; rewrite E;
      eexists; (split; [destruct d; reflexivity|]); [left|right; left]; eauto. eexists. split; [reflexivity|]. apply numb_d. }
  assert (Sub : forall l d i, (forall d i, base d -> ops d l -> 0 <= i -> reads (inw (elem_by s lm (to_expr l) i) d) d) ->
    base d -> ops d l -> 0 <= i ->
    reads (inw (k <- lift (modz i (esize (dw d) (to_expr l))) ;; elem_by s lm (to_expr l) k) d) d).
  { intros l d i IH B O Hi. rewrite esize_to_expr. destruct (dsize_pos d0 z d l B O) as [Sb Z]. unfold modz.
    destruct (Z.eqb_spec (dsize (dw d) l) 0) as [E|N].
    - exists (Undef UB_div0). split; [unfold inw, bind; cbn [lift]; now destruct d|]. right. right. split; [|reflexivity]. destruct Z; [assumption|lia].
    - apply IH; auto. apply Z.mod_pos_bound. lia. }
  assert (Inw : forall (A B : Type) (m : M world A) (f : A -> M world B) d, inw (bind m f) d = bind (inw m) (fun v => inw (f v)) d).
  { intros A B m f d. unfold inw, bind. destruct (m (dw d)) as [[a|x|u] w]; reflexivity. }
  assert (Inw2 : forall (A B C : Type) (m : M world A) (f : A -> M world B) (g : B -> M world C) d,
    inw (bind (bind m f) g) d = bind (inw m) (fun v => inw (bind (f v) g)) d).
  { intros A B C m f g d. unfold inw, bind. destruct (m (dw d)) as [[a|x|u] w]; reflexivity. }
  assert (Two : forall op l r d i, (forall d i, base d -> ops d l -> 0 <= i -> reads (inw (elem_by s lm (to_expr l) i) d) d) ->
    (forall d i, base d -> ops d r -> 0 <= i -> reads (inw (elem_by s lm (to_expr r) i) d) d) ->
    base d -> ops d l -> ops d r -> 0 <= i ->
    reads (inw (elem_by s lm (EBin op (to_expr l) (to_expr r)) i) d) d).
  { intros op l r d i IHl IHr B Ol Or Hi. cbn [elem_by]. rewrite !to_expr_sca.
    match goal with |- reads (inw (bind get ?f) d) d => change (reads (inw (f (dw d)) d) d) end. cbv beta.
    destruct (turn2_cases _ (eo_elem _ Once (dw d) (EBin op (to_expr l) (to_expr r)) i)) as [-> | ->]; cbn [in_turn].
    - rewrite Inw2. apply reads_then; [now apply Sub|]. intros a Na.
      rewrite Inw2. apply reads_then; [now apply Sub|]. intros b Nb.
      destruct (fine_bin lm op a b Na Nb) as [v [Ev Nv]]. exists (Done v). split; [|eauto].
      destruct d. unfold inw, bind, ret, lift. cbn. now rewrite Ev.
    - rewrite Inw2. apply reads_then; [now apply Sub|]. intros b Nb.
      rewrite Inw2. apply reads_then; [now apply Sub|]. intros a Na.
      destruct (fine_bin lm op a b Na Nb) as [v [Ev Nv]]. exists (Done v). split; [|eauto].
      destruct d. unfold inw, bind, ret, lift. cbn. now rewrite Ev. }
  induction e as [x|ct k l|l IHl r IHr|l IHl r IHr|l IHl r IHr|l IHl r IHr|op l IHl r IHr|e IH]; intros d i B O Hi; cbn [to_expr];
    try (destruct (ops_two z d _ l r O eq_refl eq_refl) as [Ol Or]; now apply Two).
  - cbn [elem_by]. apply Leaf; auto. apply (op_var _ _ _ O x). now left.
  - cbn [elem_by]. apply Leaf; auto. apply (op_con _ _ _ O k l). now left.
  - assert (O' : ops d e) by (split; apply O). cbn [elem_by]. rewrite !to_expr_sca.
    match goal with |- reads (inw (bind get ?f) d) d => change (reads (inw (f (dw d)) d) d) end. cbv beta.
    rewrite Inw. apply reads_then; [now apply Sub|]. intros a Na.
    exists (Done (VD (lm_un lm FSin (v2f a)))). split; [destruct d; reflexivity|]. left. eexists. split; [reflexivity|]. apply numb_d.
Qed.

Lemma dder_by_safe lm c e' e x n i d1 j : (forall y, In y (dvars e') -> In y (dvars e)) -> ops d1 e' -> 0 <= j ->
  forall d, half e x n i d1 d -> safe (dder_by s lm c e' j d) (fun v d' => numb v /\ half e x n i d1 d').
Proof.
  intros Sub O Hj.
  assert (Two : forall (f : val -> val -> outcome val) (ml mr : M dworld val) p v d, Permutation p (seq 0 2) ->
    (forall d, half e x n i d1 d -> safe (ml d) (fun v d' => numb v /\ half e x n i d1 d')) ->
    (forall d, half e x n i d1 d -> safe (mr d) (fun v d' => numb v /\ half e x n i d1 d')) ->
    (forall a b, numb a -> numb b -> fine (f a b)) -> half e x n i d1 d ->
    safe ((u <- in_turn p (fun k => match k with 0%nat => ml | _ => mr end) v ;; lift (f (u 0%nat) (u 1%nat))) d)
      (fun v d' => numb v /\ half e x n i d1 d')).
  { intros f ml mr p v d P Sl Sr F H.
    eapply safe_bind; [apply (turn_safe (half e x n i d1) numb); [|exact H]|].
    - intros [|k] d2 _ H2; auto.
    - intros u d2 [H2 U]. destruct (F (u 0%nat) (u 1%nat)) as [w [-> Nw]]; [apply U; left; apply (turn2 _ _ P); lia..|]. now split. }
  assert (Four : forall (f : val -> val -> val -> val -> outcome val) (ma mb ml mr : M dworld val) p v d, Permutation p (seq 0 4) ->
    (forall d, half e x n i d1 d -> reads (ma d) d) -> (forall d, half e x n i d1 d -> reads (mb d) d) ->
    (forall d, half e x n i d1 d -> safe (ml d) (fun v d' => numb v /\ half e x n i d1 d')) ->
    (forall d, half e x n i d1 d -> safe (mr d) (fun v d' => numb v /\ half e x n i d1 d')) ->
    (forall a b a' b', numb a -> numb b -> numb a' -> numb b' -> fine (f a b a' b')) -> half e x n i d1 d ->
    safe ((u <- in_turn p (fun k => match k with 0%nat => ma | 1%nat => mb | 2%nat => ml | _ => mr end) v ;;
           lift (f (u 0%nat) (u 1%nat) (u 2%nat) (u 3%nat))) d)
      (fun v d' => numb v /\ half e x n i d1 d')).
  { intros f ma mb ml mr p v d P Ra Rb Sl Sr F H.
    assert (Rd : forall (m : M dworld val) d2, half e x n i d1 d2 -> reads (m d2) d2 ->
      safe (m d2) (fun v d' => numb v /\ half e x n i d1 d')).
    { intros m d2 H2 [o [E C]]. rewrite E. destruct C as [[w [-> N]]|[[t ->]|[Z ->]]]; cbn [DerivSafe.safe]; auto.
      - apply H2.
      - split; [exact Z|]. split; [reflexivity|]. apply (ha_base _ _ _ _ _ _ _ H2). }
    eapply safe_bind; [apply (turn_safe (half e x n i d1) numb); [|exact H]|].
    - intros [|[|[|k]]] d2 _ H2; auto.
    - intros u d2 [H2 U]. destruct (F (u 0%nat) (u 1%nat) (u 2%nat) (u 3%nat)) as [w [-> Nw]]; [apply U; left; apply (turn4 _ _ P); lia..|]. now split. }
  revert Sub O.
  induction e' as [y|ct k l|l IHl r IHr|l IHl r IHr|l IHl r IHr|l IHl r IHr|op l IHl r IHr|e' IH]; intros Sub O d H; cbn [dder_by].
  all: try (destruct (ops_two z d1 _ l r O eq_refl eq_refl) as [Ol Or];
    assert (Sl : forall y, In y (dvars l) -> In y (dvars e)) by (intros y Iy; apply Sub; cbn [dvars]; apply in_or_app; now left);
    assert (Sr : forall y, In y (dvars r) -> In y (dvars e)) by (intros y Iy; apply Sub; cbn [dvars]; apply in_or_app; now right);
    specialize (IHl Sl Ol); specialize (IHr Sr Or); rewrite dbind_get).
  - assert (I : In y (dvars e)) by (apply Sub; now left).
    pose proof (op_var _ _ _ (half_ops _ _ _ _ _ _ _ _ _ H O) y ltac:(now left)) as [_ Z].
    eapply safe_weak; [apply leaf_der_safe; [apply H|eapply half_askable; eauto|exact Z|exact Hj]|].
    intros v d' [Nv A]. split; [exact Nv|]. eapply half_asked; eauto.
  - split; [apply numb_d|exact H].
  - apply Two; auto; [apply (eo_der _ Once)|apply fine_plus].
  - apply Two; auto; [apply (eo_der _ Once)|apply fine_minus].
  - apply Four; auto; [apply (eo_der _ Once)| | |apply fine_times];
      intros d2 H2; apply dval_by_reads; auto; try apply H2; eapply half_ops; eauto.
  - apply (Four (if is_const_type r then divide_const_der else divide_der lm)); auto; [apply (eo_der _ Once)| | |].
    + intros d2 H2; apply dval_by_reads; auto; try apply H2; eapply half_ops; eauto.
    + intros d2 H2; apply dval_by_reads; auto; try apply H2; eapply half_ops; eauto.
    + destruct (is_const_type r); [apply fine_divc|apply fine_divide].
  - apply Two; auto; [apply (eo_der _ Once)|apply fine_cmp].
  - assert (O' : ops d1 e') by (split; apply O). destruct (is_leaf e').
    + eapply reads_bind; [apply H|apply dval_by_reads; [apply H|eapply half_ops; eauto|exact Hj]|]. intros u Nu.
      destruct (fine_sin lm FCos u Nu) as [v [-> Nv]]. now split.
    + eapply safe_bind; [apply IH; auto|]. intros a d2 [Na H2].
      destruct (fine_sin lm FCos a Na) as [v [-> Nv]]. now split.
Qed.

Lemma mk_cons_by_safe e : forall d, inv d -> (forall k l, In (k, l) (dcons e) -> Z.of_nat (length l) < 2 ^ 63) ->
  safe (mk_cons_by s e d) (fun _ d' => inv d' /\ only_k d d' /\
    (forall k, 1 <= sz (ob (dw d) (OD (kslot k))) -> 1 <= sz (ob (dw d') (OD (kslot k)))) /\
    (forall k l, In (k, l) (dcons e) -> 1 <= sz (ob (dw d') (OD (kslot k))))).
Proof.
  assert (Two : forall l r d,
    (forall d, inv d -> (forall k v, In (k, v) (dcons l) -> Z.of_nat (length v) < 2 ^ 63) ->
       safe (mk_cons_by s l d) (fun _ d' => inv d' /\ only_k d d' /\
         (forall k, 1 <= sz (ob (dw d) (OD (kslot k))) -> 1 <= sz (ob (dw d') (OD (kslot k)))) /\
         (forall k v, In (k, v) (dcons l) -> 1 <= sz (ob (dw d') (OD (kslot k)))))) ->
    (forall d, inv d -> (forall k v, In (k, v) (dcons r) -> Z.of_nat (length v) < 2 ^ 63) ->
       safe (mk_cons_by s r d) (fun _ d' => inv d' /\ only_k d d' /\
         (forall k, 1 <= sz (ob (dw d) (OD (kslot k))) -> 1 <= sz (ob (dw d') (OD (kslot k)))) /\
         (forall k v, In (k, v) (dcons r) -> 1 <= sz (ob (dw d') (OD (kslot k)))))) ->
    inv d -> (forall k v, In (k, v) (dcons l ++ dcons r) -> Z.of_nat (length v) < 2 ^ 63) ->
    safe ((mk_cons_by s l ;; mk_cons_by s r) d) (fun _ d' => inv d' /\ only_k d d' /\
         (forall k, 1 <= sz (ob (dw d) (OD (kslot k))) -> 1 <= sz (ob (dw d') (OD (kslot k)))) /\
         (forall k v, In (k, v) (dcons l ++ dcons r) -> 1 <= sz (ob (dw d') (OD (kslot k)))))).
  { intros l r d IHl IHr I Hl.
    eapply safe_bind; [apply IHl; [exact I|intros; eapply Hl; apply in_or_app; left; eassumption]|].
    intros [] d1 [I1 [O1 [P1 C1]]].
    eapply safe_weak; [apply IHr; [exact I1|intros; eapply Hl; apply in_or_app; right; eassumption]|].
    intros ? d2 [I2 [O2 [P2 C2]]]. split; [exact I2|]. split.
    { intros o N. eapply same_obj_trans; [now apply O1|now apply O2]. }
    split; [intros k Hk; auto|]. intros k v Ik. apply in_app_or in Ik. destruct Ik as [Ik|Ik]; [apply P2|]; eauto. }
  assert (Any : forall e l r d,
    (forall d, inv d -> (forall k v, In (k, v) (dcons l) -> Z.of_nat (length v) < 2 ^ 63) ->
       safe (mk_cons_by s l d) (fun _ d' => inv d' /\ only_k d d' /\
         (forall k, 1 <= sz (ob (dw d) (OD (kslot k))) -> 1 <= sz (ob (dw d') (OD (kslot k)))) /\
         (forall k v, In (k, v) (dcons l) -> 1 <= sz (ob (dw d') (OD (kslot k)))))) ->
    (forall d, inv d -> (forall k v, In (k, v) (dcons r) -> Z.of_nat (length v) < 2 ^ 63) ->
       safe (mk_cons_by s r d) (fun _ d' => inv d' /\ only_k d d' /\
         (forall k, 1 <= sz (ob (dw d) (OD (kslot k))) -> 1 <= sz (ob (dw d') (OD (kslot k)))) /\
         (forall k v, In (k, v) (dcons r) -> 1 <= sz (ob (dw d') (OD (kslot k)))))) ->
    inv d -> (forall k v, In (k, v) (dcons l ++ dcons r) -> Z.of_nat (length v) < 2 ^ 63) ->
    safe ((d1 <- get ;; _ <- in_turn (so_con s d1 e) (fun k => match k with 0%nat => mk_cons_by s l | _ => mk_cons_by s r end) (fun _ => tt) ;; ret tt) d) (fun _ d' => inv d' /\ only_k d d' /\
         (forall k, 1 <= sz (ob (dw d) (OD (kslot k))) -> 1 <= sz (ob (dw d') (OD (kslot k)))) /\
         (forall k v, In (k, v) (dcons l ++ dcons r) -> 1 <= sz (ob (dw d') (OD (kslot k)))))).
  { intros e0 l r d IHl IHr I Hl. rewrite dbind_get.
    destruct (turn2_cases _ (eo_con _ Once d e0)) as [-> | ->]; cbn [in_turn].
    - pose proof (Two l r d IHl IHr I Hl) as H. rewrite dbind_assoc. revert H. unfold bind.
      destruct (mk_cons_by s l d) as [[[]|[?|]|?] d1]; auto.
      destruct (mk_cons_by s r d1) as [[[]|[?|]|?] d2]; auto.
    - assert (Sw : forall k (c : list flt), In (k, c) (dcons r ++ dcons l) <-> In (k, c) (dcons l ++ dcons r)).
      { intros k c. rewrite !in_app_iff. tauto. }
      pose proof (Two r l d IHr IHl I ltac:(intros k v Hk; apply (Hl k v); now apply Sw)) as H.
      eapply (safe_weak d0 z) in H.
      2:{ intros a d2 [A [B [C D]]]. exact (conj A (conj B (conj C (fun k v Hk => D k v (proj2 (Sw k v) Hk))))). }
      rewrite dbind_assoc. revert H. unfold bind.
      destruct (mk_cons_by s r d) as [[[]|[?|]|?] d1]; auto.
      destruct (mk_cons_by s l d1) as [[[]|[?|]|?] d2]; auto. }
  induction e as [x|ct k l|l IHl r IHr|l IHl r IHr|l IHl r IHr|l IHl r IHr|op l IHl r IHr|e IH]; intros d I Hl; cbn [mk_cons_by dcons] in *;
    try (now apply Any).
  - cbn [ret safe]. split; [exact I|]. split; [intros o _; apply same_obj_refl|]. split; [auto|]. intros k l [].
  - eapply safe_weak; [apply mk_con_safe; [exact I|apply (Hl k l); now left]|].
    intros ? d1 [I1 [O1 P1]]. split; [exact I1|]. split; [intros o N; apply O1; apply N|]. split.
    + intros k' Hk. destruct (Nat.eq_dec k' k) as [->|N]; [exact P1|].
      rewrite (sz_same d d1); [exact Hk|]. apply O1. intros E. apply od_inj in E. apply slots_k in E. auto.
    + intros k' l' [E|[]]. injection E as <- <-. exact P1.
  - now apply IH.
Qed.

Lemma dassign_exp_by_safe lm c x e d : knd x = KBuffer -> (num x < nbuf c)%nat -> inv d -> ops d e ->
  safe (dassign_exp_by s lm c x e d) (fun _ d' => assigned x d d').
Proof.
  intros K N I O. pose proof I as [B F L]. unfold dassign_exp_by. apply safe_get. rewrite esize_to_expr.
  set (n := dsize (dw d) e). destruct (dsize_pos d0 z d e B O) as [Hn _]. fold n in Hn. cbv zeta.
  eapply safe_bind; [apply resize_safe; [exact B|apply inp_t|lia]|].
  intros [] d1 [B1 [O1 [Pos [Sz1 _]]]].
  assert (Op1 : forall d2, others (OT (vslot x)) d d2 -> ops d2 e).
  { intros d2 O2. eapply ops_keep; [| |exact O]; intros; apply O2; discriminate. }
  eapply safe_bind; [apply (fill_loop d0 z d1 (OT (vslot x))); [exact B1|exact Sz1|lia|]|].
  { intros i d2 Hi B2 E2 O2. eapply reads_bind; [exact B2|apply elem_by_reads; [exact B2| |lia]|].
    - apply Op1. eapply others_trans; eauto.
    - intros v Nv. destruct (cast_dbl v Nv) as [f ->]. unfold bind. cbn [lift].
      apply set_safe; [exact B2|apply inp_t|lia|eexists; reflexivity]. }
  intros [] d2 [B2 [O2 [E2 F2]]]. pose proof (others_trans _ _ _ _ O1 O2) as O3.
  assert (I2 : inv d2) by (eapply inv_other; [exact I|exact B2|exact O3|exact F2|discriminate|discriminate]).
  eapply safe_bind; [apply resize_safe; [exact B2|apply inp_d|lia]|].
  intros [] d3 [B3 [O4 [_ [Sz3 [G1 G2]]]]].
  assert (Sn : dsize (dw d2) e = n).
  { apply dsize_same; intros; apply sz_same, O3; discriminate. }
  assert (Sn3 : dsize (dw d3) e = n).
  { rewrite <- Sn. apply dsize_same; intros; apply sz_same, O4; [apply vslot_not_d|apply kslot_not_d]. }
  assert (H3 : half e x n 0 d3 d3).
  { apply (half_start d0 e x n d2 d3); auto; try apply I2. - intros y _. apply I2. - intros Ix. rewrite <- Sn. now apply dsize_var. }
  apply safe_get. rewrite Sn3.
  eapply safe_bind; [apply (der_loop d0 z e x n d3 (dder_by s lm c e)); [lia| |exact H3]|].
  { intros i d4 Hi H4. apply dder_by_safe; auto. eapply ops_keep; [| |exact (Op1 d2 O3)]; intros; apply O4; [apply vslot_not_d|apply kslot_not_d]. }
  intros [] d4 [H4 Sz4].
  assert (Ft : full d4 (OT (vslot x))).
  { apply (ha_full _ _ _ _ _ _ _ H4). discriminate. }
  eapply safe_weak; [apply (finish_safe d0 z e x n d3); [exact K|exact H4|exact Sz4|lia|]|].
  - intros i d5 Hi B5 O5 _. eapply reads_bind; [exact B5|eapply get_temp; [exact B5| |exact Hi]|].
    + eapply full_same; [apply O5; discriminate|exact Ft].
    + intros v Nv. now apply buf_wr_safe.
  - intros ? d5 A. eapply assigned_after; [|exact H4|exact A].
    intros o Nd Nt. eapply same_obj_trans; [now apply O3|now apply O4].
Qed.

Lemma dexec_by_safe lm c t d : assigns c t -> inv d ->
  (match t with DAssign x e => forall y, In y (dvars e) -> z \/ 1 <= sz (ob (dw d) (OD (vslot y))) end) ->
  safe (dexec_by s lm c t d) (fun _ d' => assigned (target t) d d').
Proof.
  destruct t as [x e]. intros [K [N [Nx Hl]]] I Hz. cbn [dexec_by target].
  eapply safe_bind; [apply mk_cons_by_safe; [exact I|exact Hl]|].
  intros [] d1 [I1 [O1 [_ C1]]].
  assert (Sv : forall y, sz (ob (dw d1) (OD (vslot y))) = sz (ob (dw d) (OD (vslot y)))).
  { intros y. apply sz_same, O1. intros k E. symmetry in E. now apply kslot_not_v in E. }
  assert (O : ops d1 e).
  { split.
    - intros y Iy. split; [apply I1|]. rewrite Sv. now apply Hz.
    - intros k l Ik. split; [apply I1|]. eapply C1; eauto. }
  assert (Fin : forall r, safe r (fun _ d' => assigned x d1 d') -> safe r (fun (_ : unit) d' => assigned x d d')).
  { intros r H. eapply safe_weak; [exact H|]. intros ? d' [A1 A2 A3]. split; auto. intros y Ny. rewrite A2 by auto. apply Sv. }
  destruct e; apply Fin; try (now apply dassign_exp_by_safe).
  - apply dassign_var_safe; auto. intros ->. now apply Nx.
  - now apply dassign_con_safe.
Qed.

Lemma drun_by_safe lm c p : forall (V : dvar -> Prop) d, Forall (assigns c) p -> (z \/ reads_known V p) ->
  (forall y, V y -> 1 <= sz (ob (dw d) (OD (vslot y)))) -> inv d ->
  safe (drun_by s lm c p d) (fun _ d' => inv d' /\
    forall y, V y \/ In y (map target p) -> 1 <= sz (ob (dw d') (OD (vslot y)))).
Proof.
  induction p as [|t p IH]; intros V d Fa Rk Vd I; cbn [drun_by].
  - cbn [ret safe]. split; [exact I|]. intros y [Hy|[]]. now apply Vd.
  - inversion Fa as [|? ? As Fa']; subst.
    eapply safe_bind; [apply dexec_by_safe; [exact As|exact I|]|].
    { destruct t as [x e]. intros y Iy. destruct Rk as [Z|[R _]]; [now left|]. right. apply Vd. now apply R. }
    intros [] d1 [I1 V1 S1].
    eapply safe_weak; [apply (IH (fun y => y = target t \/ V y)); auto|].
    + destruct t as [x e]. destruct Rk as [Z|[_ R]]; [now left|now right].
    + intros y [->|Hy]; [exact S1|]. destruct (dvar_dec y (target t)) as [->|N]; [exact S1|]. rewrite V1; auto.
    + intros ? d2 [I2 V2]. split; [exact I2|]. intros y [Hy|[<-|Hy]]; apply V2; auto.
Qed.
End From.
