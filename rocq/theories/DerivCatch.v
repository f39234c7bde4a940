(** What an exception of a derivative program leaves behind. *)
From Coq Require Import ZArith List Bool Lia String.
From Verif Require Import Base Num StoreModel VecModel Spec SpecVec SpecDeriv DerivModel SpecDerivSafe TryModel SpecTry
  CapProofs StoreProofs StoreOps VecProofs VecAssign DerivProofs DerivSafe ProgProofs MatProofs.
Import ListNotations.
Open Scope Z_scope.
Local Notation length := List.length (only parsing).

(** If it throws an assertion the state satisfies E. *)
Definition esc {A} (r : outcome A * dworld) (E : dworld -> Prop) : Prop :=
  match r with (Thrown (Ass _), d) => E d | _ => True end.
Definition mute {A} (r : outcome A * dworld) : Prop := esc r (fun _ => False).

Lemma esc_weak {A} (r : outcome A * dworld) (E F : dworld -> Prop) : esc r E -> (forall d, E d -> F d) -> esc r F.
Proof. destruct r as [[a|[m|]|u] d]; cbn [esc]; auto. Qed.
Lemma mute_esc {A} (r : outcome A * dworld) E : mute r -> esc r E.
Proof. intros H. eapply esc_weak; [exact H|]. intros d []. Qed.
Lemma esc_get {A} (f : dworld -> M dworld A) d E : esc (f d d) E -> esc (bind get f d) E.
Proof. intros H. exact H. Qed.

(** A computation that reads, and returns a number. *)
Definition sees (r : outcome val * dworld) (d : dworld) : Prop := exists v, r = (Done v, d) /\ numb v.
Lemma sees_then (m : M dworld val) (f : val -> M dworld val) d : sees (m d) d ->
  (forall v, numb v -> sees (f v d) d) -> sees (bind m f d) d.
Proof. intros [v [E N]] H. unfold bind. rewrite E. now apply H. Qed.
Lemma sees_fine r d : fine r -> sees (lift r d) d.
Proof. intros [v [-> N]]. exists v. split; [reflexivity|exact N]. Qed.
Lemma sees_bind {A} (m : M dworld val) (f : val -> M dworld A) d E : sees (m d) d ->
  (forall v, numb v -> esc (f v d) E) -> esc (bind m f d) E.
Proof. intros [v [X N]] H. unfold bind. rewrite X. now apply H. Qed.

Section From.
Variable d0 : dworld.
Local Notation base := (DerivSafe.base d0).
Local Notation inv := (DerivSafe.inv d0).
Local Notation ops := (DerivSafe.ops False).
Local Notation safe := (DerivSafe.safe d0 False).
Local Notation half := (DerivSafe.half d0).

Lemma esc_bind {A B} (m : M dworld A) (f : A -> M dworld B) d Q E :
  safe (m d) Q -> esc (m d) E -> (forall a d', Q a d' -> esc (f a d') E) -> esc (bind m f d) E.
Proof. unfold bind. destruct (m d) as [[a|[s|]|u] d']; cbn [DerivSafe.safe esc]; auto. Qed.

Lemma for_esc (P : Z -> dworld -> Prop) E body k : forall i d, P i d ->
  (forall j d, i <= j < i + Z.of_nat k -> P j d -> safe (body j d) (fun _ => P (j + 1)) /\ esc (body j d) E) ->
  esc (forN k i body d) E.
Proof.
  induction k as [|k IH]; intros i d Pi H; cbn [forN].
  - exact I.
  - destruct (H i d ltac:(lia) Pi) as [H1 H2]. eapply esc_bind; [exact H1|exact H2|]. intros [] d' Q.
    apply IH; [exact Q|]. intros j d1 Hj. apply H. lia.
Qed.
Lemma dfor_esc (P : Z -> dworld -> Prop) E n body d : P 0 d ->
  (forall j d, 0 <= j < n -> P j d -> safe (body j d) (fun _ => P (j + 1)) /\ esc (body j d) E) ->
  esc (dfor n body d) E.
Proof.
  intros P0 H. unfold dfor. apply (for_esc P E body (Z.to_nat n) 0 d P0). intros j d1 Hj. apply H. lia.
Qed.

Lemma resize_esc d o n : base d -> ~ inp o -> n < 2 ^ 63 ->
  esc (inw (resize o n) d) (fun d' => d' = d /\ n < 1).
Proof.
  intros B NI Hn. destruct (ba_own _ _ B o NI) as [K [Sc Al]]. unfold inw.
  destruct (resize_cases (dw d) o n (ba_shape _ _ B) K) as [c w1 E1 N C Bc R|m E1 Lt|m E1 _ Al' Pn|w1 E1 _ _ Oth Pq Kq Aq Fr|w1 E1 X];
    [lia| | | | |]; rewrite E1; cbn [esc]; auto.
  - split; [now destruct d|exact Lt].
  - exfalso. now apply (Al Al').
Qed.
Lemma resize_mute d o n : base d -> ~ inp o -> 1 <= n < 2 ^ 63 -> mute (inw (resize o n) d).
Proof. intros B NI Hn. eapply esc_weak; [now apply resize_esc|]. intros d' [_ L]. lia. Qed.

Lemma set_esc d o i v : base d -> ~ inp o -> 0 <= i -> dbl v ->
  esc (inw (set_at o i v) d) (fun d' => d' = d /\ sz (ob (dw d) o) <= i).
Proof.
  intros B NI Hi [f ->]. destruct (ba_own _ _ B o NI) as [K [Sc Al]]. unfold inw.
  destruct (Z.ltb_spec i (sz (ob (dw d) o))) as [Lt|Ge].
  - pose proof (ba_shape _ _ B) as W. destruct (shape_ptr (dw d) o W) as [a P]; [lia|].
    pose proof (shape_alloc _ _ _ W P) as A. destruct (ptr_live _ _ _ W P) as [cs [Bl [L1 L2]]].
    rewrite (set_at_in (dw d) o a i (VD f) P A Lt).
    destruct (wrc_ok (dw d) a i (Some (VD f)) _ cs Bl) as [w2 [E2 U2]]; [lia|]. rewrite E2. exact I.
  - assert (E : set_at o i (VD f) (dw d) = at_wr o i (VD f) (dw d)) by (unfold at_wr; now rewrite bind_st, K).
    destruct (at_wr_out (dw d) o i (VD f) Ge) as [m E']. rewrite E, E'. cbn [esc]. split; [now destruct d|exact Ge].
Qed.
Lemma set_mute d o i v : base d -> ~ inp o -> 0 <= i < sz (ob (dw d) o) -> dbl v -> mute (inw (set_at o i v) d).
Proof. intros B NI Hi Dv. eapply esc_weak; [apply set_esc; auto; lia|]. intros d' [_ L]. lia. Qed.

Lemma fill_mute d o f : base d -> ~ inp o -> 1 <= sz (ob (dw d) o) -> mute (inw (fill o (VD f)) d).
Proof.
  intros B NI Hs. pose proof (ba_shape _ _ B) as W.
  destruct (shape_ptr (dw d) o W) as [a P]; [lia|]. destruct (ptr_live _ _ _ W P) as [cs [Bl [L1 L2]]].
  unfold inw. destruct (fill_ok (dw d) o (VD f) a _ cs P Bl) with (v' := VD f) as [w' [cs' [E _]]]; [lia|now rewrite (ba_ty _ _ B)|].
  rewrite E. exact I.
Qed.

(** Writing all elements *)
Lemma fill_loop_mute d1 o n body : base d1 -> sz (ob (dw d1) o) = n -> 0 <= n ->
  (forall i d, 0 <= i < n -> base d -> ob (dw d) = ob (dw d1) -> others o d1 d ->
     safe (body i d) (fun _ d' => wrote d0 o i d d') /\ mute (body i d)) ->
  mute (dfor n body d1).
Proof.
  intros B Sz Hn H.
  apply (dfor_esc (fun i d => base d /\ others o d1 d /\ ob (dw d) = ob (dw d1))).
  - split; [exact B|]. split; [apply others_refl|reflexivity].
  - intros i d Hi [B1 [O1 E1]]. destruct (H i d Hi B1 E1 O1) as [S1 M1]. split; [|exact M1].
    eapply safe_weak; [exact S1|]. intros ? d' [B2 [O2 [E2 ?]]].
    split; [exact B2|]. split; [eapply others_trans; eauto|congruence].
Qed.

(** Reading *)
Lemma rd_sees d o i : base d -> full d o -> 0 <= i < sz (ob (dw d) o) -> sees (inw (at_rd o i) d) d.
Proof.
  intros B F Hi. unfold inw. destruct (rd_full d0 d o i B F) as [[f [_ E]]|[X _]]; [lia| |lia].
  rewrite E. exists (VD f). split; [now destruct d|apply numb_d].
Qed.
Lemma leaf_val_sees d s i : base d -> full d (OD s) -> 1 <= sz (ob (dw d) (OD s)) -> 0 <= i -> sees (leaf_val s i d) d.
Proof.
  intros B F Z Hi. unfold leaf_val. rewrite dbind_get. unfold modz.
  replace (sz (ob (dw d) (OD s)) =? 0) with false by (symmetry; apply Z.eqb_neq; lia).
  unfold bind. cbn [lift]. apply rd_sees; auto. apply Z.mod_pos_bound. lia.
Qed.
Lemma op_pos d e y : ops d e -> In y (dvars e) -> full d (OD (vslot y)) /\ 1 <= sz (ob (dw d) (OD (vslot y))).
Proof. intros O I. destruct (op_var _ _ _ O y I) as [F [[]|Z]]. now split. Qed.
Lemma size_pos d e : base d -> ops d e -> 1 <= dsize (dw d) e <= 2 ^ 60.
Proof. intros B O. destruct (dsize_pos d0 False d e B O) as [H [[]|Z]]. lia. Qed.

Lemma dval_sees lm e : forall d i, base d -> ops d e -> 0 <= i -> sees (dval lm e i d) d.
Proof.
  induction e as [x|ct k l|l IHl r IHr|l IHl r IHr|l IHl r IHr|l IHl r IHr|op l IHl r IHr|e IH]; intros d i B O Hi; cbn [dval];
    try (destruct (ops_two False d _ l r O eq_refl eq_refl) as [Ol Or];
         apply sees_then; [now apply IHl|]; intros a Na; apply sees_then; [now apply IHr|]; intros b Nb;
         apply sees_fine; now apply fine_bin).
  - destruct (op_pos d _ x O) as [F Z]; [now left|]. now apply leaf_val_sees.
  - destruct (op_con _ _ _ O k l) as [F Z]; [now left|]. now apply leaf_val_sees.
  - apply sees_then; [apply IH; auto; split; apply O|]. intros a Na. apply sees_fine. now apply fine_sin.
Qed.

Lemma elem_sees lm e : forall d i, base d -> ops d e -> 0 <= i < dsize (dw d) e -> sees (inw (elem lm (to_expr e) i) d) d.
Proof.
  assert (Sub : forall l d i, (forall d i, base d -> ops d l -> 0 <= i < dsize (dw d) l -> sees (inw (elem lm (to_expr l) i) d) d) ->
    base d -> ops d l -> 0 <= i ->
    sees (inw (k <- lift (modz i (esize (dw d) (to_expr l))) ;; elem lm (to_expr l) k) d) d).
  { intros l d i IH B O Hi. rewrite esize_to_expr. pose proof (size_pos d l B O). unfold modz.
    replace (dsize (dw d) l =? 0) with false by (symmetry; apply Z.eqb_neq; lia).
    apply IH; auto. apply Z.mod_pos_bound. lia. }
  assert (Inw : forall (m : M world val) (f : val -> M world val) d, inw (bind m f) d = bind (inw m) (fun v => inw (f v)) d).
  { intros m f d. unfold inw, bind. destruct (m (dw d)) as [[a|x|u] w]; reflexivity. }
  assert (Two : forall op l r d i, (forall d i, base d -> ops d l -> 0 <= i < dsize (dw d) l -> sees (inw (elem lm (to_expr l) i) d) d) ->
    (forall d i, base d -> ops d r -> 0 <= i < dsize (dw d) r -> sees (inw (elem lm (to_expr r) i) d) d) ->
    base d -> ops d l -> ops d r -> 0 <= i ->
    sees (inw (elem lm (EBin op (to_expr l) (to_expr r)) i) d) d).
  { intros op l r d i IHl IHr B Ol Or Hi. cbn [elem]. rewrite !to_expr_sca.
    match goal with |- sees (inw (bind get ?f) d) d => change (sees (inw (f (dw d)) d) d) end. cbv beta.
    rewrite Inw. apply sees_then; [now apply Sub|]. intros a Na.
    rewrite Inw. apply sees_then; [now apply Sub|]. intros b Nb.
    destruct (fine_bin lm op a b Na Nb) as [v [-> Nv]]. exists v. split; [destruct d; reflexivity|exact Nv]. }
  induction e as [x|ct k l|l IHl r IHr|l IHl r IHr|l IHl r IHr|l IHl r IHr|op l IHl r IHr|e IH]; intros d i B O Hi; cbn [to_expr];
    try (destruct (ops_two False d _ l r O eq_refl eq_refl) as [Ol Or]; apply Two; auto; lia).
  - cbn [elem]. apply rd_sees; auto. apply (op_pos d _ x O). now left.
  - cbn [elem]. apply rd_sees; auto. apply (op_con _ _ _ O k l). now left.
  - assert (O' : ops d e) by (split; apply O). cbn [elem]. rewrite !to_expr_sca.
    match goal with |- sees (inw (bind get ?f) d) d => change (sees (inw (f (dw d)) d) d) end. cbv beta.
    rewrite Inw. apply sees_then; [apply Sub; auto; lia|]. intros a Na.
    exists (VD (lm_un lm FSin (v2f a))). split; [destruct d; reflexivity|apply numb_d].
Qed.

(** Asking for derivatives *)
Lemma der_init_mute c y d : base d -> askable d y -> 1 <= sz (ob (dw d) (OD (vslot y))) -> mute (der_init c y d).
Proof.
  intros B A Pos. unfold der_init. apply esc_get.
  pose proof (sz_bound d0 d (OD (vslot y)) B) as Sv.
  destruct (Z.eqb_spec (sz (ob (dw d) (OD (dslot y)))) (sz (ob (dw d) (OD (vslot y))))) as [E|N]; [exact I|].
  eapply esc_bind; [apply resize_safe; [exact B|apply inp_d|lia]|apply resize_mute; [exact B|apply inp_d|lia]|].
  intros [] d1 [B1 [O1 [_ [Sz1 _]]]]. apply esc_get. destruct (_ && _); [|exact I].
  eapply esc_bind; [apply fill_safe; [exact B1|apply inp_d|lia]|apply fill_mute; [exact B1|apply inp_d|lia]|].
  intros [] d2 _. exact I.
Qed.
Lemma leaf_der_mute c y i d : base d -> askable d y -> 1 <= sz (ob (dw d) (OD (vslot y))) -> 0 <= i -> mute (leaf_der c y i d).
Proof.
  intros B A Z Hi. unfold leaf_der. eapply esc_bind; [apply der_init_safe; eauto|now apply der_init_mute|].
  intros [] d1 Asd. pose proof Asd as [B1 O1 Sz F _]. apply esc_get. rewrite Sz. unfold modz.
  replace (sz (ob (dw d) (OD (vslot y))) =? 0) with false by (symmetry; apply Z.eqb_neq; lia).
  unfold bind. cbn [lift]. destruct (ba_own _ _ B1 (OD (dslot y)) (inp_d y)) as [K _].
  assert (M : 0 <= i mod sz (ob (dw d) (OD (vslot y))) < sz (ob (dw d) (OD (vslot y)))) by (apply Z.mod_pos_bound; lia).
  destruct (rd_sees d1 (OD (dslot y)) (i mod sz (ob (dw d) (OD (vslot y)))) B1) as [v [E _]];
    [unfold full; now rewrite Sz|lia|].
  unfold inw in *. rewrite <- get_at_rd by congruence. rewrite E. exact I.
Qed.

Lemma dder_mute lm c e' e x n i d1 j : (forall y, In y (dvars e') -> In y (dvars e)) -> ops d1 e' -> 0 <= j ->
  forall d, half e x n i d1 d -> mute (dder lm c e' j d).
Proof.
  intros Sub O Hj. revert Sub O.
  assert (Done1 : forall r d, fine r -> mute (lift r d)) by (intros r d [v [-> _]]; exact I).
  induction e' as [y|ct k l|l IHl r IHr|l IHl r IHr|l IHl r IHr|l IHl r IHr|op l IHl r IHr|e' IH]; intros Sub O d H; cbn [dder].
  all: try (destruct (ops_two False d1 _ l r O eq_refl eq_refl) as [Ol Or];
    assert (Sl : forall y, In y (dvars l) -> In y (dvars e)) by (intros y Iy; apply Sub; cbn [dvars]; apply in_or_app; now left);
    assert (Sr : forall y, In y (dvars r) -> In y (dvars e)) by (intros y Iy; apply Sub; cbn [dvars]; apply in_or_app; now right);
    specialize (IHl Sl Ol); specialize (IHr Sr Or);
    assert (Bin : forall (f : val -> val -> outcome val), (forall a b, numb a -> numb b -> fine (f a b)) ->
      mute ((a <- dder lm c l j ;; b <- dder lm c r j ;; lift (f a b)) d))
      by (intros f Ff; eapply esc_bind; [exact (dder_safe d0 False lm c l e x n i d1 j Sl Ol Hj d H)|now apply IHl|];
          intros a d2 [Na H2]; eapply esc_bind; [exact (dder_safe d0 False lm c r e x n i d1 j Sr Or Hj d2 H2)|now apply IHr|];
          intros b d3 [Nb H3]; apply Done1; now apply Ff)).
  - assert (Iy : In y (dvars e)) by (apply Sub; now left).
    destruct (op_pos d _ y (half_ops d0 False _ _ _ _ _ _ _ H O)) as [_ Z]; [now left|].
    apply leaf_der_mute; [apply H|eapply half_askable; eauto|exact Z|exact Hj].
  - exact I.
  - apply (Bin plus_der). intros; now apply fine_plus.
  - apply (Bin minus_der). intros; now apply fine_minus.
  - pose proof (half_ops d0 False _ _ _ _ _ _ _ H Ol) as Ol'. pose proof (half_ops d0 False _ _ _ _ _ _ _ H Or) as Or'.
    apply sees_bind; [apply dval_sees; auto; apply H|]. intros u Nu.
    apply sees_bind; [apply dval_sees; auto; apply H|]. intros w Nw.
    apply (Bin (times_der u w)). intros; now apply fine_times.
  - pose proof (half_ops d0 False _ _ _ _ _ _ _ H Ol) as Ol'. pose proof (half_ops d0 False _ _ _ _ _ _ _ H Or) as Or'.
    apply sees_bind; [apply dval_sees; auto; apply H|]. intros u Nu.
    apply sees_bind; [apply dval_sees; auto; apply H|]. intros w Nw.
    destruct (is_const_type r).
    + apply (Bin (divide_const_der u w)). intros; now apply fine_divc.
    + apply (Bin (divide_der lm u w)). intros; now apply fine_divide.
  - apply (Bin cmp_der). intros; now apply fine_cmp.
  - assert (O' : ops d1 e') by (split; apply O). destruct (is_leaf e').
    + apply sees_bind; [apply dval_sees; [apply H|eapply half_ops; eauto|exact Hj]|]. intros u Nu.
      apply Done1. now apply fine_sin.
    + eapply esc_bind; [exact (dder_safe d0 False lm c e' e x n i d1 j Sub O' Hj d H)|now apply IH|]. intros a d2 [Na H2].
      apply Done1. now apply fine_sin.
Qed.

(** The derivatives of the target are too few: it is on its own right-hand side. *)
Definition stuck (e : dexpr) (x : dvar) (n : Z) (d1 d : dworld) : Prop :=
  exists i, half e x n i d1 d /\ sz (ob (dw d) (OD (dslot x))) <= i < n.

Lemma der_loop_esc e x n d1 body : 1 <= n ->
  (forall i d, 0 <= i -> half e x n i d1 d -> safe (body i d) (fun v d' => numb v /\ half e x n i d1 d') /\ mute (body i d)) ->
  half e x n 0 d1 d1 ->
  esc (dfor n (fun i => v <- body i ;; der_wr x i v) d1) (stuck e x n d1).
Proof.
  intros Hn Hb H1. apply (dfor_esc (fun i d => half e x n i d1 d)); [exact H1|].
  intros i d Hi H. destruct (Hb i d ltac:(lia) H) as [S1 M1]. split.
  - eapply safe_bind; [exact S1|]. intros v d2 [Nv H2].
    eapply safe_weak; [apply (half_write d0 False e x n i d1); [lia|exact Nv|exact H2]|]. intros ? d3 [H3 L]. exact H3.
  - eapply esc_bind; [exact S1|now apply mute_esc|]. intros v d2 [Nv H2]. unfold der_wr.
    destruct (cast_dbl v Nv) as [f ->]. unfold bind at 1. cbn [lift].
    eapply esc_weak; [apply set_esc; [apply H2|apply inp_d|lia|eexists; reflexivity]|].
    intros d3 [-> L]. exists i. split; [exact H2|lia].
Qed.
Lemma stuck_own e x n d1 d : stuck e x n d1 d -> In x (dvars e).
Proof. intros [i [H L]]. destruct (ha_size _ _ _ _ _ _ _ H) as [E|[I _]]; [lia|exact I]. Qed.
Lemma stuck_inv e x n d1 d : stuck e x n d1 d -> inv d.
Proof.
  intros [i [H L]]. destruct (ha_size _ _ _ _ _ _ _ H) as [E|[I E]]; [lia|].
  destruct (ha_old _ _ _ _ _ _ _ H I) as [_ F]. split; [apply H| |].
  - intros o. destruct (oid_dec o (OD (dslot x))) as [->|N]; [unfold full; now rewrite E|]. now apply (ha_full _ _ _ _ _ _ _ H).
  - intros y. destruct (dvar_dec y x) as [->|N]; [now left|]. now apply (ha_link _ _ _ _ _ _ _ H).
Qed.

(** Nothing but constants, derivatives and the temporary changed. *)
Definition vals_kept (d d' : dworld) : Prop := forall y, same_obj (dw d) (dw d') (OD (vslot y)).

Lemma mk_con_esc k l d : inv d -> Z.of_nat (length l) < 2 ^ 63 -> esc (mk_con k l d) (fun d' => inv d' /\ vals_kept d d' /\ l = []).
Proof.
  intros I Hl. unfold mk_con.
  eapply esc_bind; [apply resize_safe; [apply I|apply inp_k|exact Hl]| |].
  { eapply esc_weak; [apply resize_esc; [apply I|apply inp_k|exact Hl]|]. intros d' [-> Lt]. split; [exact I|].
    split; [intros y; apply same_obj_refl|]. destruct l as [|v l]; [reflexivity|]. cbn [List.length] in Lt. lia. }
  intros [] d1 [B1 [O1 [Pos [Sz1 _]]]]. apply mute_esc.
  apply (fill_loop_mute d1 (OD (kslot k))); [exact B1|exact Sz1|lia|].
  intros i d2 Hi B2 E2 O2. split.
  - apply set_safe; [exact B2|apply inp_k|lia|eexists; reflexivity].
  - apply set_mute; [exact B2|apply inp_k|rewrite E2; lia|eexists; reflexivity].
Qed.

Lemma mk_cons_esc e : forall d, inv d -> (forall k l, In (k, l) (dcons e) -> Z.of_nat (length l) < 2 ^ 63) ->
  esc (mk_cons e d) (fun d' => inv d' /\ vals_kept d d' /\ exists k, In (k, []) (dcons e)).
Proof.
  assert (Two : forall l r d,
    (forall d, inv d -> (forall k v, In (k, v) (dcons l) -> Z.of_nat (length v) < 2 ^ 63) ->
       esc (mk_cons l d) (fun d' => inv d' /\ vals_kept d d' /\ exists k, In (k, []) (dcons l))) ->
    (forall d, inv d -> (forall k v, In (k, v) (dcons r) -> Z.of_nat (length v) < 2 ^ 63) ->
       esc (mk_cons r d) (fun d' => inv d' /\ vals_kept d d' /\ exists k, In (k, []) (dcons r))) ->
    inv d -> (forall k v, In (k, v) (dcons l ++ dcons r) -> Z.of_nat (length v) < 2 ^ 63) ->
    esc ((mk_cons l ;; mk_cons r) d) (fun d' => inv d' /\ vals_kept d d' /\ exists k, In (k, []) (dcons l ++ dcons r))).
  { intros l r d IHl IHr I Hl.
    assert (Hl1 : forall k v, In (k, v) (dcons l) -> Z.of_nat (length v) < 2 ^ 63) by (intros; eapply Hl; apply in_or_app; left; eassumption).
    eapply esc_bind; [apply mk_cons_safe; [exact I|exact Hl1]| |].
    { eapply esc_weak; [now apply IHl|]. intros d' [I' [V' [k Ik]]]. split; [exact I'|]. split; [exact V'|]. exists k. apply in_or_app. now left. }
    intros [] d1 [I1 [O1 _]].
    eapply esc_weak; [apply IHr; [exact I1|intros; eapply Hl; apply in_or_app; right; eassumption]|].
    intros d2 [I2 [V2 [k0 Ik]]]. split; [exact I2|]. split; [|exists k0; apply in_or_app; now right]. intros y. eapply same_obj_trans; [|apply V2]. apply O1.
    intros k E. symmetry in E. now apply kslot_not_v in E. }
  induction e as [x|ct k l|l IHl r IHr|l IHl r IHr|l IHl r IHr|l IHl r IHr|op l IHl r IHr|e IH]; intros d Iv Hl; cbn [mk_cons dcons] in *;
    try (now apply Two).
  - exact I.
  - eapply esc_weak; [apply mk_con_esc; [exact Iv|apply (Hl k l); now left]|].
    intros d' [I' [V' ->]]. split; [exact I'|]. split; [exact V'|]. exists k. now left.
  - now apply IH.
Qed.

Lemma buf_wr_mute c x i v d : knd x = KBuffer -> (num x < nbuf c)%nat -> base d -> numb v -> 0 <= i < sz (ob (dw d) (OD (vslot x))) ->
  mute (buf_wr c (num x) i v d).
Proof.
  intros K N B Nv Hi. unfold buf_wr. replace (num x <? nbuf c)%nat with true by (symmetry; now apply Nat.ltb_lt).
  assert (E : DV KBuffer (num x) = x) by (destruct x; cbn in *; congruence). rewrite E.
  match goal with |- mute (bind (inw (st ?o)) ?f d) => replace (bind (inw (st o)) f d) with (f (ob (dw d) o) d) by (destruct d; reflexivity) end.
  cbv beta. rewrite (ba_ty _ _ B). destruct (cast_dbl v Nv) as [f ->]. unfold bind. cbn [lift].
  assert (NI : ~ inp (OD (vslot x))) by (now apply inp_v).
  replace (inw (at_wr (OD (vslot x)) i (VD f)) d) with (inw (set_at (OD (vslot x)) i (VD f)) d).
  - apply set_mute; auto. eexists; reflexivity.
  - unfold inw, at_wr. rewrite bind_st. destruct (ba_own _ _ B _ NI) as [-> _]. reflexivity.
Qed.

Lemma values_mute x n body d :
  base d -> ~ inp (OD (vslot x)) -> 1 <= n < 2 ^ 63 ->
  (forall i d2, 0 <= i < n -> base d2 -> others (OD (vslot x)) d d2 -> sz (ob (dw d2) (OD (vslot x))) = n ->
     safe (body i d2) (fun _ d' => wrote d0 (OD (vslot x)) i d2 d') /\ mute (body i d2)) ->
  mute ((inw (any_resize (OD (vslot x)) n) ;; dfor n body) d).
Proof.
  intros B NI Hn Hb. 
  eapply esc_bind; [rewrite (any_resize_own d0) by assumption; apply resize_safe; [exact B|exact NI|lia]| |].
  { rewrite (any_resize_own d0) by assumption. now apply resize_mute. }
  intros [] d1 [B1 [O1 [Pos [Sz1 _]]]].
  apply (fill_loop_mute d1 (OD (vslot x))); [exact B1|exact Sz1|lia|].
  intros i d2 Hi B2 E2 O2. apply Hb; [exact Hi|exact B2|eapply others_trans; eauto|now rewrite E2].
Qed.

Lemma shape_mute x e d : mute (dshape x e d).
Proof. unfold dshape, inw. rewrite take_shape_done. exact I. Qed.

Lemma dassign_con_esc c x k d : knd x = KBuffer -> (num x < nbuf c)%nat -> inv d -> 1 <= sz (ob (dw d) (OD (kslot k))) ->
  ismat (mp (ob (dw d) (OD (kslot k)))) = false -> mute (dassign_con c x k d).
Proof.
  intros K N Iv Pk Pl. pose proof Iv as [B F L]. assert (NI : ~ inp (OD (vslot x))) by now apply inp_v.
  unfold dassign_con. apply esc_get. cbv zeta. set (n := sz (ob (dw d) (OD (kslot k)))) in *.
  pose proof (sz_bound d0 d (OD (kslot k)) B) as Hn. fold n in Hn.
  assert (Body : forall i d2, 0 <= i -> base d2 -> others (OD (vslot x)) d d2 ->
    safe ((v <- inw (at_rd (OD (kslot k)) i) ;; buf_wr c (num x) i v) d2) (fun _ d' => wrote d0 (OD (vslot x)) i d2 d')).
  { intros i d2 Hi B2 O2. eapply reads_bind; [exact B2|eapply get_at_slot; [exact B2| |exact Hi]|].
    - eapply full_same; [apply O2; apply kslot_not_v|apply F].
    - intros v Nv. now apply buf_wr_safe. }
  rewrite <- dbind_assoc.
  eapply esc_bind; [apply values_safe; [exact B|exact NI|lia|]|apply values_mute; [exact B|exact NI|lia|]|].
  { intros i d2 Hi B2 O2 _. now apply Body. }
  { intros i d2 Hi B2 O2 Sz2. split; [apply Body; auto; lia|].
    apply sees_bind; [apply rd_sees; [exact B2| |]|].
    - eapply full_same; [apply O2; apply kslot_not_v|apply F].
    - rewrite (sz_same d d2); [exact Hi|]. apply O2. apply kslot_not_v.
    - intros v Nv. apply buf_wr_mute; auto. now rewrite Sz2. }
  intros [] d1 [B1 [O1 [F1 [Sz1 Pos]]]].
  eapply esc_bind; [apply resize_safe; [exact B1|apply inp_d|lia]|apply resize_mute; [exact B1|apply inp_d|lia]|].
  intros [] d2 [B2 [O2 [_ [Sz2 _]]]].
  assert (Wr : forall i d3, 0 <= i < n -> base d3 -> ob (dw d3) = ob (dw d2) -> others (OD (dslot x)) d2 d3 ->
    safe (der_wr x i (VD (if indep c =? Z.of_nat (num x) then fone else fzero)) d3) (fun _ d' => wrote d0 (OD (dslot x)) i d3 d') /\
    mute (der_wr x i (VD (if indep c =? Z.of_nat (num x) then fone else fzero)) d3)).
  { intros i d3 Hi B3 E3 _. unfold der_wr. unfold bind. cbn [lift cast]. split.
    - apply set_safe; [exact B3|apply inp_d|lia|]. destruct (_ =? _); eexists; reflexivity.
    - apply set_mute; [exact B3|apply inp_d|rewrite E3; lia|]. destruct (_ =? _); eexists; reflexivity. }
  eapply esc_bind; [apply (fill_loop d0 False d2 (OD (dslot x))); [exact B2|exact Sz2|lia|intros; now apply Wr]
    |apply (fill_loop_mute d2 (OD (dslot x))); [exact B2|exact Sz2|lia|exact Wr]|].
  intros [] d3 [B3 [O3 _]]. pose proof (others_trans _ _ _ _ O2 O3) as O4.
  assert (Sm : same_obj (dw d) (dw d3) (OD (kslot k))).
  { eapply same_obj_trans; [apply O1, kslot_not_v|apply O4, kslot_not_d]. }
  apply esc_get. destruct Sm as [-> _]. rewrite Pl. exact I.
Qed.

Lemma dassign_exp_esc lm c x e d : knd x = KBuffer -> (num x < nbuf c)%nat -> inv d -> ops d e ->
  esc (dassign_exp lm c x e d) (fun d' => inv d' /\ vals_kept d d' /\
    In x (dvars e) /\ sz (ob (dw d) (OD (vslot x))) < dsize (dw d) e).
Proof.
  intros K N Iv O. pose proof Iv as [B F L]. unfold dassign_exp. apply esc_get. rewrite esize_to_expr.
  set (n := dsize (dw d) e). pose proof (size_pos d e B O) as Hn. fold n in Hn. cbv zeta.
  assert (NI : ~ inp (OD (vslot x))) by now apply inp_v.
  eapply esc_bind; [apply resize_safe; [exact B|apply inp_t|lia]|apply mute_esc, resize_mute; [exact B|apply inp_t|lia]|].
  intros [] d1 [B1 [O1 [Pos [Sz1 _]]]].
  assert (Op1 : forall d2, others (OT (vslot x)) d d2 -> ops d2 e).
  { intros d2 O2. eapply ops_keep; [| |exact O]; intros; apply O2; discriminate. }
  assert (Body : forall i d2, 0 <= i < n -> base d2 -> ob (dw d2) = ob (dw d1) -> others (OT (vslot x)) d1 d2 ->
    safe ((v <- inw (elem lm (to_expr e) i) ;; v' <- lift (cast TDouble v) ;; inw (set_at (OT (vslot x)) i v')) d2)
      (fun _ d' => wrote d0 (OT (vslot x)) i d2 d') /\
    mute ((v <- inw (elem lm (to_expr e) i) ;; v' <- lift (cast TDouble v) ;; inw (set_at (OT (vslot x)) i v')) d2)).
  { intros i d2 Hi B2 E2 O2. assert (Op2 : ops d2 e) by (apply Op1; eapply others_trans; eauto). split.
    - eapply reads_bind; [exact B2|eapply elem_reads; [exact B2|exact Op2|lia]|].
      intros v Nv. destruct (cast_dbl v Nv) as [f ->]. unfold bind. cbn [lift].
      apply set_safe; [exact B2|apply inp_t|lia|eexists; reflexivity].
    - apply sees_bind; [apply elem_sees; [exact B2|exact Op2|]|].
      + replace (dsize (dw d2) e) with n; [exact Hi|]. unfold n. symmetry.
        apply dsize_same; intros; apply sz_same, (others_trans _ _ _ _ O1 O2); discriminate.
      + intros v Nv. destruct (cast_dbl v Nv) as [f ->]. unfold bind. cbn [lift].
        apply set_mute; [exact B2|apply inp_t|rewrite E2; lia|eexists; reflexivity]. }
  eapply esc_bind; [apply (fill_loop d0 False d1 (OT (vslot x))); [exact B1|exact Sz1|lia|intros; now apply Body]
    |apply mute_esc, (fill_loop_mute d1 (OT (vslot x))); [exact B1|exact Sz1|lia|exact Body]|].
  intros [] d2 [B2 [O2 [E2 F2]]]. pose proof (others_trans _ _ _ _ O1 O2) as O3.
  assert (I2 : inv d2) by (eapply inv_other; [exact Iv|exact B2|exact O3|exact F2|discriminate|discriminate]).
  eapply esc_bind; [apply resize_safe; [exact B2|apply inp_d|lia]|apply mute_esc, resize_mute; [exact B2|apply inp_d|lia]|].
  intros [] d3 [B3 [O4 [_ [Sz3 [G1 G2]]]]].
  assert (Sn : dsize (dw d2) e = n).
  { apply dsize_same; intros; apply sz_same, O3; discriminate. }
  assert (Sn3 : dsize (dw d3) e = n).
  { rewrite <- Sn. apply dsize_same; intros; apply sz_same, O4; [apply vslot_not_d|apply kslot_not_d]. }
  assert (H3 : half e x n 0 d3 d3).
  { apply (half_start d0 e x n d2 d3); auto; try apply I2. - intros y _. apply I2. - intros Ix. rewrite <- Sn. now apply dsize_var. }
  apply esc_get. rewrite Sn3.
  assert (Op3 : ops d3 e) by (eapply ops_keep; [| |exact (Op1 d2 O3)]; intros; apply O4; [apply vslot_not_d|apply kslot_not_d]).
  eapply esc_bind; [apply (der_loop d0 False e x n d3 (dder lm c e)); [lia| |exact H3]| |].
  { intros i d4 Hi H4. now apply dder_safe. }
  { eapply esc_weak; [apply (der_loop_esc e x n d3 (dder lm c e)); [lia| |exact H3]|].
    - intros i d4 Hi H4. split; [now apply dder_safe|]. eapply dder_mute; eauto.
    - intros d4 St. split; [eapply stuck_inv; exact St|].
      assert (Vk : vals_kept d d4).
      { destruct St as [i [H4 _]]. intros y.
        eapply same_obj_trans; [apply O3; discriminate|]. eapply same_obj_trans; [apply O4, vslot_not_d|].
        apply (ha_keep _ _ _ _ _ _ _ H4). intros; apply vslot_not_d. }
      split; [exact Vk|]. split; [eapply stuck_own; exact St|]. fold n.
      destruct St as [i [H4 Li]]. rewrite <- (sz_same d d4 _ (Vk x)).
      destruct (ha_size _ _ _ _ _ _ _ H4) as [E|[_ E]]; lia. }
  intros [] d4 [H4 Sz4].
  assert (Ft : full d4 (OT (vslot x))).
  { apply (ha_full _ _ _ _ _ _ _ H4). discriminate. }
  assert (St : sz (ob (dw d4) (OT (vslot x))) = n).
  { rewrite (sz_same d3 d4) by (apply (ha_keep _ _ _ _ _ _ _ H4); discriminate).
    rewrite (sz_same d2 d3) by (apply O4; discriminate). now rewrite E2. }
  assert (Get : forall i d5, 0 <= i < n -> base d5 -> others (OD (vslot x)) d4 d5 -> sees (inw (get_at (OT (vslot x)) i) d5) d5).
  { intros i d5 Hi B5 O5. assert (Sm : same_obj (dw d4) (dw d5) (OT (vslot x))) by (apply O5; discriminate).
    destruct (rd_sees d5 (OT (vslot x)) i B5) as [v [E Nv]].
    - eapply full_same; [exact Sm|exact Ft].
    - rewrite (sz_same d4 d5 _ Sm), St. exact Hi.
    - exists v. split; [|exact Nv]. rewrite <- E. unfold inw.
      rewrite <- get_at_rd; [reflexivity|]. destruct (ba_own _ _ B5 (OT (vslot x)) (inp_t _)) as [Kt _]. congruence. }
  rewrite <- dbind_assoc. apply mute_esc.
  assert (Wb : forall i d5, 0 <= i -> base d5 -> others (OD (vslot x)) d4 d5 -> sz (ob (dw d5) (OD (vslot x))) = n ->
     safe ((v <- inw (get_at (OT (vslot x)) i) ;; buf_wr c (num x) i v) d5) (fun _ d' => wrote d0 (OD (vslot x)) i d5 d')).
  { intros i d5 Hi B5 O5 _. eapply reads_bind; [exact B5|eapply get_temp; [exact B5| |exact Hi]|].
    - eapply full_same; [apply O5; discriminate|exact Ft].
    - intros v Nv. now apply buf_wr_safe. }
  eapply esc_bind; [apply values_safe; [apply H4|exact NI|lia|exact Wb]|apply values_mute; [apply H4|exact NI|lia|]|].
  { intros i d5 Hi B5 O5 S5. split; [apply Wb; auto; lia|].
    apply sees_bind; [now apply Get|]. intros v Nv. apply buf_wr_mute; auto. now rewrite S5. }
  intros [] d5 _. apply shape_mute.
Qed.

Lemma dassign_var_esc c x y d : knd x = KBuffer -> x <> y -> inv d -> ops d (DVar y) -> mute (dassign_var c x y d).
Proof.
  intros K Ne Iv O. pose proof Iv as [B F L]. assert (NI : ~ inp (OD (vslot x))) by now apply inp_v.
  destruct (op_pos d _ y O ltac:(now left)) as [Fy Zy].
  assert (Nv : forall y, y <> x -> OD (vslot y) <> OD (vslot x)) by (intros y' N E; apply od_inj, slots_v in E; congruence).
  unfold dassign_var. apply esc_get. set (n := sz (ob (dw d) (OD (vslot y)))) in *.
  pose proof (sz_bound d0 d (OD (vslot y)) B) as Hn. fold n in Hn. cbv zeta.
  eapply esc_bind; [rewrite (any_resize_own d0) by assumption; apply resize_safe; [exact B|exact NI|lia]| |].
  { rewrite (any_resize_own d0) by assumption. apply resize_mute; [exact B|exact NI|lia]. }
  intros [] d1 [B1 [O1 [Pos [Sz1 _]]]]. apply esc_get. rewrite Sz1.
  assert (Body : forall i d2, 0 <= i < n -> base d2 -> ob (dw d2) = ob (dw d1) -> others (OD (vslot x)) d1 d2 ->
    safe ((v <- leaf_val (vslot y) i ;; inw (at_wr (OD (vslot x)) i v)) d2) (fun _ d' => wrote d0 (OD (vslot x)) i d2 d') /\
    mute ((v <- leaf_val (vslot y) i ;; inw (at_wr (OD (vslot x)) i v)) d2)).
  { intros i d2 Hi B2 E2 O2. pose proof (others_trans _ _ _ _ O1 O2) as O3.
    assert (Sy : same_obj (dw d) (dw d2) (OD (vslot y))) by (apply O3, Nv; congruence).
    assert (Rd : exists f, leaf_val (vslot y) i d2 = (Done (VD f), d2)).
    { unfold leaf_val. rewrite dbind_get, (sz_same d d2 _ Sy). fold n. unfold modz.
      replace (n =? 0) with false by (symmetry; apply Z.eqb_neq; lia).
      unfold bind, inw. cbn [lift]. assert (M : 0 <= i mod n < n) by (apply Z.mod_pos_bound; lia).
      destruct (rd_full d0 d2 (OD (vslot y)) (i mod n) B2) as [[f [_ E]]|[X _]]; [eapply full_same; eauto|lia| |].
      - rewrite E. exists f. now destruct d2.
      - rewrite (sz_same d d2 _ Sy) in X. fold n in X. lia. }
    destruct Rd as [f E]. unfold bind. rewrite E.
    replace (inw (at_wr (OD (vslot x)) i (VD f)) d2) with (inw (set_at (OD (vslot x)) i (VD f)) d2)
      by (unfold inw, at_wr; rewrite bind_st; destruct (ba_own _ _ B2 _ NI) as [-> _]; reflexivity).
    split; [apply set_safe; auto; [lia|]|apply set_mute; auto; [rewrite E2; lia|]]; eexists; reflexivity. }
  eapply esc_bind; [apply (fill_loop d0 False d1 (OD (vslot x))); [exact B1|exact Sz1|lia|intros; now apply Body]
    |apply (fill_loop_mute d1 (OD (vslot x))); [exact B1|exact Sz1|lia|exact Body]|].
  intros [] d2 [B2 [O2 [E2 F2]]]. pose proof (others_trans _ _ _ _ O1 O2) as O3.
  assert (Fa : forall o, full d2 o).
  { intros o. destruct (oid_dec o (OD (vslot x))) as [->|N]; [exact F2|]. eapply full_same; [now apply O3|apply F]. }
  assert (Nd : forall y, OD (dslot y) <> OD (vslot x)) by (intros y' E; symmetry in E; now apply vslot_not_d in E).
  assert (Lk : forall y, y <> x -> link d2 y).
  { intros y' N. unfold link. rewrite (sz_same d d2 (OD (vslot y'))) by now apply O3, Nv.
    rewrite (sz_same d d2 (OD (dslot y'))) by apply O3, Nd. destruct (O3 _ (Nd y')) as [-> _]. apply L. }
  eapply esc_bind; [apply resize_safe; [exact B2|apply inp_d|lia]|apply resize_mute; [exact B2|apply inp_d|lia]|].
  intros [] d3 [B3 [O4 [_ [Sz3 [G1 G2]]]]].
  assert (Nx : ~ In x (dvars (DVar y))) by (intros [E|[]]; congruence).
  assert (H3 : half (DVar y) x n 0 d3 d3).
  { apply (half_start d0 (DVar y) x n d2 d3); auto; [intros y' [N|Ix]; [now apply Lk|contradiction]|contradiction]. }
  assert (Op3 : ops d3 (DVar y)).
  { eapply ops_keep; [| |exact O]; [|intros k l []]. intros y' [<-|[]].
    eapply same_obj_trans; [apply O3, Nv; congruence|apply O4, vslot_not_d]. }
  assert (Lf : forall i d4, 0 <= i -> half (DVar y) x n i d3 d4 ->
    safe (leaf_der c y i d4) (fun v d' => numb v /\ half (DVar y) x n i d3 d') /\ mute (leaf_der c y i d4)).
  { intros i d4 Hi H4. split.
    - now apply (dder_safe d0 False (Build_libm (fun _ f => f) (fun f _ => f)) c (DVar y)).
    - apply (dder_mute (Build_libm (fun _ f => f) (fun f _ => f)) c (DVar y) (DVar y) x n i d3); auto. }
  eapply esc_bind; [apply (der_loop d0 False (DVar y) x n d3 (leaf_der c y)); [lia|intros; now apply Lf|exact H3]| |].
  { eapply esc_weak; [apply (der_loop_esc (DVar y) x n d3 (leaf_der c y)); [lia|exact Lf|exact H3]|].
    intros d4 St. apply Nx. eapply stuck_own; exact St. }
  intros [] d4 _. apply shape_mute.
Qed.

(** The sizes of the constants *)
Lemma mk_con_size k l d : inv d -> Z.of_nat (length l) < 2 ^ 63 ->
  safe (mk_con k l d) (fun _ d' => sz (ob (dw d') (OD (kslot k))) = Z.of_nat (length l) /\ others (OD (kslot k)) d d').
Proof.
  intros I Hl. unfold mk_con.
  eapply safe_bind; [apply resize_safe; [apply I|apply inp_k|exact Hl]|].
  intros [] d1 [B1 [O1 [Pos [Sz1 _]]]].
  eapply safe_weak; [apply (fill_loop d0 False d1 (OD (kslot k))); [exact B1|exact Sz1|lia|]|].
  - intros i d2 Hi B2 E2 O2. apply set_safe; [exact B2|apply inp_k|lia|eexists; reflexivity].
  - intros ? d2 [B2 [O2 [E2 F2]]]. split; [now rewrite E2|eapply others_trans; eauto].
Qed.
Definition con_sizes (e : dexpr) (d d' : dworld) : Prop := forall k,
  (exists l, In (k, l) (dcons e) /\ sz (ob (dw d') (OD (kslot k))) = Z.of_nat (length l)) \/
  (sz (ob (dw d') (OD (kslot k))) = sz (ob (dw d) (OD (kslot k))) /\ forall l, ~ In (k, l) (dcons e)).
Lemma mk_cons_sizes e : forall d, inv d -> (forall k l, In (k, l) (dcons e) -> Z.of_nat (length l) < 2 ^ 63) ->
  safe (mk_cons e d) (fun _ d' => inv d' /\ con_sizes e d d').
Proof.
  assert (Two : forall l r e d, dcons e = dcons l ++ dcons r ->
    (forall d, inv d -> (forall k v, In (k, v) (dcons l) -> Z.of_nat (length v) < 2 ^ 63) ->
       safe (mk_cons l d) (fun _ d' => inv d' /\ con_sizes l d d')) ->
    (forall d, inv d -> (forall k v, In (k, v) (dcons r) -> Z.of_nat (length v) < 2 ^ 63) ->
       safe (mk_cons r d) (fun _ d' => inv d' /\ con_sizes r d d')) ->
    inv d -> (forall k v, In (k, v) (dcons l ++ dcons r) -> Z.of_nat (length v) < 2 ^ 63) ->
    safe ((mk_cons l ;; mk_cons r) d) (fun _ d' => inv d' /\ con_sizes e d d')).
  { intros l r e0 d Ee IHl IHr I Hl.
    eapply safe_bind; [apply IHl; [exact I|intros; eapply Hl; apply in_or_app; left; eassumption]|].
    intros [] d1 [I1 C1].
    eapply safe_weak; [apply IHr; [exact I1|intros; eapply Hl; apply in_or_app; right; eassumption]|].
    intros [] d2 [I2 C2]. split; [exact I2|]. intros k. rewrite Ee.
    destruct (C2 k) as [[v [Iv E]]|[E N2]]; [left; exists v; split; [apply in_or_app; now right|exact E]|].
    destruct (C1 k) as [[v [Iv E1]]|[E1 N1]]; [left; exists v; split; [apply in_or_app; now left|congruence]|].
    right. split; [congruence|]. intros v Iv. apply in_app_or in Iv. destruct Iv as [Iv|Iv]; [now apply (N1 v)|now apply (N2 v)]. }
  induction e as [x|ct k l|l IHl r IHr|l IHl r IHr|l IHl r IHr|l IHl r IHr|op l IHl r IHr|e IH]; intros d I Hl; cbn [mk_cons];
    try (apply Two; auto; reflexivity).
  - split; [exact I|]. intros k. right. split; [reflexivity|intros l []].
  - assert (Hk : Z.of_nat (length l) < 2 ^ 63) by (apply (Hl k l); now left).
    pose proof (mk_con_safe d0 False k l d I Hk) as S1. pose proof (mk_con_size k l d I Hk) as S2.
    destruct (mk_con k l d) as [[[]|[m|]|u] d1]; cbn [DerivSafe.safe] in *; auto.
    split; [apply S1|]. destruct S2 as [Sz O1]. intros k'. destruct (Nat.eq_dec k' k) as [->|Nk].
    + left. exists l. split; [now left|exact Sz].
    + right. split; [|intros v [E|[]]; congruence].
      apply sz_same, O1. intros E. apply od_inj in E. apply slots_k in E. auto.
  - now apply IH.
Qed.
Lemma dsize_leaf w e (P : Z -> Prop) :
  P (dsize w e) -> (exists y, In y (dvars e) /\ P (sz (ob w (OD (vslot y))))) \/ (exists k l, In (k, l) (dcons e) /\ P (sz (ob w (OD (kslot k))))).
Proof.
  induction e as [x|ct k l|l IHl r IHr|l IHl r IHr|l IHl r IHr|l IHl r IHr|op l IHl r IHr|e IH]; cbn [dvars dcons dsize]; intros H;
    try (destruct (_ <? _); [apply IHl in H|apply IHr in H];
         (destruct H as [[y [Iy Py]]|[k [v [Ik Pk]]]]; [left; exists y|right; exists k, v]; (split; [apply in_or_app; auto|assumption]))).
  - left. exists x. split; [now left|exact H].
  - right. exists k, l. split; [now left|exact H].
  - now apply IH.
Qed.

(** Nothing gives a constant a shape. *)
Definition plain (d : dworld) : Prop := forall k, ismat (mp (ob (dw d) (OD (kslot k)))) = false.
Definition kkeep {A} (m : M dworld A) : Prop := forall d k, mp (ob (dw (snd (m d))) (OD (kslot k))) = mp (ob (dw d) (OD (kslot k))).
Lemma kk_bind {A B} (m : M dworld A) (f : A -> M dworld B) : kkeep m -> (forall a, kkeep (f a)) -> kkeep (bind m f).
Proof.
  intros Hm Hf d k. unfold bind. specialize (Hm d k). destruct (m d) as [[a|e|u] d1]; cbn [snd] in *; auto. now rewrite (Hf a d1 k).
Qed.
Lemma kk_inw {A} (m : M world A) : keep m -> kkeep (inw m).
Proof. intros H d k. unfold inw. specialize (H (dw d) (kslot k)). now destruct (m (dw d)) as [r w]. Qed.
Lemma kk_for n body : (forall i, kkeep (body i)) -> kkeep (dfor n body).
Proof.
  intros H. unfold dfor. generalize (Z.to_nat n) as j, 0 as i. induction j as [|j IH]; intros i; cbn [forN]; [intros d k; reflexivity|].
  apply kk_bind; auto.
Qed.
Lemma kk_same {A} (m : M dworld A) : (forall d, snd (m d) = d) -> kkeep m.
Proof. intros H d k. now rewrite H. Qed.
Lemma kk_get : kkeep get. Proof. now apply kk_same. Qed.
Lemma kk_ret {A} (a : A) : kkeep (ret a). Proof. now apply kk_same. Qed.
Lemma kk_lift {A} (r : outcome A) : kkeep (lift r). Proof. now apply kk_same. Qed.
Lemma kk_ass b m : kkeep (ass b m). Proof. apply kk_same. intros d. unfold ass. now destruct b. Qed.
Lemma kk_set o i v : kkeep (inw (set_at o i v)).
Proof. apply kk_inw. unfold set_at. kept. Qed.
Lemma kk_get_at o i : kkeep (inw (get_at o i)).
Proof. apply kk_inw. unfold get_at. kept. Qed.
Lemma kk_shape x e : kkeep (dshape x e).
Proof.
  intros d k. unfold dshape, inw.
  pose proof (only_take_shape (fun o => o = OD (vslot x)) (OD (vslot x)) e eq_refl (dw d) (OD (kslot k)) (kslot_not_v k x)) as H.
  destruct (take_shape (OD (vslot x)) e (dw d)) as [r w]. cbn [snd dw] in *. now rewrite H.
Qed.
Local Ltac kks := repeat first
  [ apply kk_get | apply kk_ret | apply kk_lift | apply kk_ass | apply kk_set | apply kk_get_at | apply kk_shape
  | apply kk_inw; first [apply keep_resize | apply keep_any_resize | apply keep_only; first [apply only_at_rd | apply only_at_wr | apply only_elem | apply only_st | apply only_fill]]
  | simple apply kk_bind; [|intro] | simple apply kk_for; intro
  | match goal with |- kkeep (if ?b then _ else _) => destruct b end
  | assumption ].
Lemma kk_init c y : kkeep (der_init c y).
Proof. unfold der_init. kks; try (intros d k; reflexivity). Qed.
Lemma kk_leaf_der c y i : kkeep (leaf_der c y i).
Proof. unfold leaf_der. apply kk_bind; [apply kk_init|intro]. kks. Qed.
Lemma kk_leaf_val s i : kkeep (leaf_val s i).
Proof. unfold leaf_val. kks. Qed.
Lemma kk_dval lm e : forall i, kkeep (dval lm e i).
Proof. induction e; intros i; cbn [dval]; try apply kk_leaf_val; kks; auto. Qed.
Lemma kk_dder lm c e : forall i, kkeep (dder lm c e i).
Proof.
  induction e; intros i; cbn [dder]; try apply kk_leaf_der; kks; try apply kk_dval; auto.
Qed.
Lemma kk_mk_cons e : kkeep (mk_cons e).
Proof. induction e; cbn [mk_cons]; kks; unfold mk_con; kks. Qed.
Lemma kk_buf_wr c n i v : kkeep (buf_wr c n i v).
Proof. unfold buf_wr. kks; try now apply kk_same. Qed.
Lemma kk_der_wr x i v : kkeep (der_wr x i v).
Proof. unfold der_wr. kks. Qed.
Lemma kk_dexec lm c s : kkeep (dexec lm c s).
Proof.
  destruct s as [x e]. cbn [dexec]. apply kk_bind; [apply kk_mk_cons|intros _].
  assert (E : kkeep (dassign_exp lm c x e)).
  { unfold dassign_exp. cbv zeta. kks; first [apply kk_dder | apply kk_der_wr | apply kk_buf_wr]. }
  destruct e; auto.
  - unfold dassign_var. cbv zeta. kks; first [apply kk_leaf_val | apply kk_leaf_der | apply kk_der_wr].
  - unfold dassign_con. cbv zeta. kks; first [apply kk_buf_wr | apply kk_der_wr].
Qed.
Lemma kk_prun lm c p : kkeep (prun lm c p).
Proof.
  induction p as [|s|a IHa b IHb|a IHa b IHb]; cbn [prun]; [apply kk_ret|apply kk_dexec|now apply kk_bind|].
  intros d k. specialize (IHa d k). destruct (prun lm c a d) as [[[]|[m|]|u] d1]; cbn [snd] in *; auto. now rewrite IHb.
Qed.
Lemma plain_keep {A} (m : M dworld A) d r d' : kkeep m -> m d = (r, d') -> plain d -> plain d'.
Proof. intros K E P k. specialize (K d k). rewrite E in K. cbn [snd] in K. rewrite K. apply P. Qed.

(** A failing statement: why, and what it leaves behind. *)
Definition cause (s : dstmt) (d : dworld) : Prop :=
  match s with DAssign x e =>
    (exists k, In (k, []) (dcons e)) \/
    (In x (dvars e) /\
      ((exists y, In y (dvars e) /\ sz (ob (dw d) (OD (vslot x))) < sz (ob (dw d) (OD (vslot y)))) \/
       (exists k l, In (k, l) (dcons e) /\ sz (ob (dw d) (OD (vslot x))) < Z.of_nat (length l))))
  end.
Record failed (s : dstmt) (d d' : dworld) : Prop := {
  fa_inv : inv d';
  fa_vals : vals_kept d d';
  fa_cause : cause s d }.

Lemma dexec_esc lm c s d : assigns c s -> inv d -> plain d ->
  (match s with DAssign x e => forall y, In y (dvars e) -> 1 <= sz (ob (dw d) (OD (vslot y))) end) ->
  esc (dexec lm c s d) (failed s d).
Proof.
  destruct s as [x e]. intros [K [N [Nx Hl]]] Iv Pl Hz. cbn [dexec].
  assert (Q : safe (mk_cons e d) (fun _ d1 => inv d1 /\ only_k d d1 /\
    (forall k l, In (k, l) (dcons e) -> 1 <= sz (ob (dw d1) (OD (kslot k)))) /\ con_sizes e d d1 /\ plain d1)).
  { pose proof (mk_cons_safe d0 False e d Iv Hl) as S1. pose proof (mk_cons_sizes e d Iv Hl) as S2.
    pose proof (plain_keep (mk_cons e) d) as S3. destruct (mk_cons e d) as [[[]|[m|]|u] d1]; cbn [DerivSafe.safe] in *; auto.
    destruct S1 as [I1 [O1 [_ C1]]]. destruct S2 as [_ C2]. repeat (split; [assumption|]). eapply S3; [apply kk_mk_cons|reflexivity|exact Pl]. }
  eapply esc_bind; [exact Q| |].
  { eapply esc_weak; [apply mk_cons_esc; [exact Iv|exact Hl]|]. intros d' [I' [V' Ck]]. split; auto. now left. }
  intros [] d1 [I1 [O1 [C1 [Cs P1]]]].
  assert (V1 : vals_kept d d1).
  { intros y. apply O1. intros k E. symmetry in E. now apply kslot_not_v in E. }
  assert (O : ops d1 e).
  { split.
    - intros y Iy. split; [apply I1|]. right. rewrite (sz_same d d1 _ (V1 y)). now apply Hz.
    - intros k l Ik. split; [apply I1|]. eapply C1; eauto. }
  assert (Ex : esc (dassign_exp lm c x e d1) (failed (DAssign x e) d)).
  { eapply esc_weak; [now apply dassign_exp_esc|]. intros d' [I' [V' [Ix Lt]]]. split; [exact I'| |].
    - intros y. eapply same_obj_trans; [apply V1|apply V'].
    - right. split; [exact Ix|]. rewrite (sz_same d d1 _ (V1 x)) in Lt.
      apply (dsize_leaf (dw d1) e (fun n => sz (ob (dw d) (OD (vslot x))) < n)) in Lt.
      destruct Lt as [[y [Iy Ly]]|[k [l [Ik Lk]]]].
      + left. exists y. split; [exact Iy|]. now rewrite (sz_same d d1 _ (V1 y)) in Ly.
      + right. destruct (Cs k) as [[l' [Il E]]|[_ No]]; [|now destruct (No l)]. exists k, l'. split; [exact Il|]. now rewrite E in Lk. }
  destruct e as [y|ct k l|l r|l r|l r|l r|op l r|e]; try exact Ex.
  - apply mute_esc. apply dassign_var_esc; auto. intros ->. now apply Nx.
  - apply mute_esc. apply dassign_con_esc; auto. apply (C1 k l). now left.
Qed.

(** Programs with handlers *)
Definition sized (V : dvar -> Prop) (d : dworld) : Prop := forall y, V y -> 1 <= sz (ob (dw d) (OD (vslot y))).

Lemma prun_safe lm c p : forall (V : dvar -> Prop) d, p_assigns c p -> p_known V p -> sized V d -> inv d -> plain d ->
  safe (prun lm c p d) (fun _ d' => inv d' /\ sized (fun y => V y \/ p_sets p y) d') /\
  esc (prun lm c p d) (fun d' => inv d' /\ sized V d').
Proof.
  induction p as [|s|a IHa b IHb|a IHa b IHb]; intros V d As Kn Vd Iv Pl; cbn [prun p_assigns p_known p_sets] in *.
  - split; [|exact I]. split; [exact Iv|]. intros y [Hy|[]]. now apply Vd.
  - assert (Hz : match s with DAssign x e => forall y, In y (dvars e) -> 1 <= sz (ob (dw d) (OD (vslot y))) end).
    { destruct s as [x e]. intros y Iy. apply Vd. now apply Kn. }
    split.
    + eapply safe_weak; [apply dexec_safe; [exact As|exact Iv|]|].
      * destruct s as [x e]. intros y Iy. right. now apply Hz.
      * intros [] d1 [I1 V1 S1]. split; [exact I1|]. intros y Hy.
        destruct (dvar_dec y (target s)) as [->|Ny]; [exact S1|]. rewrite V1 by exact Ny. destruct Hy as [Hy|Hy]; [now apply Vd|contradiction].
    + eapply esc_weak; [now apply dexec_esc|]. intros d1 [I1 V1 _]. split; [exact I1|]. intros y Hy.
      rewrite (sz_same d d1 _ (V1 y)). now apply Vd.
  - destruct As as [Aa Ab], Kn as [Ka Kb]. destruct (IHa V d Aa Ka Vd Iv Pl) as [S1 E1].
    pose proof (plain_keep _ d (fst (prun lm c a d)) (snd (prun lm c a d)) (kk_prun lm c a) ltac:(now destruct (prun lm c a d)) Pl) as P1.
    unfold bind. destruct (prun lm c a d) as [[[]|[m|]|u] d1]; cbn [DerivSafe.safe esc snd] in *; try (split; auto; fail).
    destruct S1 as [I1 V1]. destruct (IHb _ d1 Ab Kb V1 I1 P1) as [S2 E2]. split.
    + eapply safe_weak; [exact S2|]. intros [] d2 [I2 V2]. split; [exact I2|]. intros y Hy. apply V2. tauto.
    + eapply esc_weak; [exact E2|]. intros d2 [I2 V2]. split; [exact I2|]. intros y Hy. apply V2. now left.
  - destruct As as [Aa Ab], Kn as [Ka Kb]. destruct (IHa V d Aa Ka Vd Iv Pl) as [S1 E1].
    pose proof (plain_keep _ d (fst (prun lm c a d)) (snd (prun lm c a d)) (kk_prun lm c a) ltac:(now destruct (prun lm c a d)) Pl) as P1.
    destruct (prun lm c a d) as [[[]|[m|]|u] d1]; cbn [DerivSafe.safe esc snd] in *.
    + split; [|exact I]. destruct S1 as [I1 V1]. split; [exact I1|]. intros y Hy. apply V1. tauto.
    + destruct E1 as [I1 V1]. destruct (IHb V d1 Ab Kb V1 I1 P1) as [S2 E2]. split; [|exact E2].
      eapply safe_weak; [exact S2|]. intros [] d2 [I2 V2]. split; [exact I2|]. intros y Hy. apply V2. tauto.
    + split; [exact S1|exact I].
    + split; [exact S1|exact I].
Qed.
End From.
