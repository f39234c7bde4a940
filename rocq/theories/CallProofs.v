(** Functions called from R follow their meaning. *)
From Coq Require Import ZArith List String Bool Lia.
From Verif Require Import Base Num StoreModel VecModel SubsetModel AllocModel ProgModel LangModel OutModel ForeignModel CallModel
  Spec SpecExpr SpecVec SpecHist SpecProg SpecSub SpecAlloc SpecCons SpecStmt SpecMat SpecForeign SpecOut SpecCall
  CapProofs StoreProofs StoreOps StoreThms StoreThms2 VecProofs VecThms VecAssign VecEval SubsetProofs SubsetThms
  AllocProofs AllocProofs2 ConsProofs ConsProofs2 ProgProofs ProgProofs2 ProgThms LangProofs MatProofs MatThms
  OutProofs ForeignProofs HideProofs.
Import ListNotations.
Open Scope Z_scope.
Local Notation length := List.length (only parsing).

(* ------------------------------------------------------- the way back to R *)

(** w' is w with one more block of R, number [hnext (hp w)]. *)
Definition grown (w w' : world) (cs : list (option val)) : Prop :=
  ob w' = ob w /\ hlim (hp w') = hlim (hp w) /\ hnext (hp w') = S (hnext (hp w)) /\
  hblk (hp w') (hnext (hp w)) = Live OwnR cs /\ forall b, b <> hnext (hp w) -> hblk (hp w') b = hblk (hp w) b.

Lemma grown_same w w' cs : world_shape w -> grown w w' cs -> forall o, same_obj w w' o.
Proof.
  intros W [E1 [_ [_ [_ E5]]]] o. split; [now rewrite E1|]. intros b P. apply E5.
  destruct (ptr_live _ _ _ W P) as [c [L _]]. intros ->. rewrite (ws_fresh _ W) in L; [discriminate|lia].
Qed.

Lemma grown_shape w w' cs : world_shape w -> grown w w' cs -> Z.of_nat (length cs) <= 2 ^ 60 -> world_shape w'.
Proof.
  intros W G L. pose proof (grown_same _ _ _ W G) as S. destruct G as [E1 [E2 [E3 [E4 E5]]]]. split.
  - intros b Hb. rewrite E5 by lia. apply (ws_fresh _ W). lia.
  - intros o. destruct (S o) as [Eo Eb]. rewrite Eo. pose proof (ws_store _ W o) as [A1 [A2 A3]].
    split; [exact A1|]. split; [exact A2|]. destruct (ptr (ob w o)) as [b|] eqn:P; [|exact A3].
    destruct A3 as [A3 [c A4]]. split; [exact A3|]. exists c. now rewrite (Eb b eq_refl).
  - rewrite E1. apply (ws_sep _ W).
  - rewrite E2. apply (ws_lim _ W).
  - intros b own c Hb. destruct (Nat.eq_dec b (hnext (hp w))) as [->|N].
    + rewrite E4 in Hb. injection Hb as <- <-. split; [exact L|discriminate].
    + rewrite E2. apply (ws_len _ W b). now rewrite <- E5.
Qed.

Lemma grown_lalive w w' cs lim ty H V s : grown w w' cs -> Z.of_nat (length cs) <= 2 ^ 60 -> lalive w lim ty H V s ->
  lalive w' lim ty H V s /\ (no_leak w -> no_leak w').
Proof.
  intros G L [[R [O U]] D]. pose proof (re_shape _ _ _ _ _ R) as W. pose proof (grown_same _ _ _ W G) as S.
  pose proof (grown_shape _ _ _ W G L) as W'. pose proof G as [E1 [E2 [E3 [E4 E5]]]].
  split; [split; [split; [|split]|]|].
  - destruct R as [Q1 Q2 Q3 Q4 Q5 Q6 Q7 Q8]. split.
    + exact W'.
    + congruence.
    + intros x Hx. eapply holds_same; [apply S|]. now apply Q3.
    + intros x Hx. unfold owning. rewrite E1. now apply Q4.
    + intros x Hx. unfold ready, can_assign. rewrite E1. now apply Q5.
    + intros x Hx. unfold small. rewrite E1. now apply Q6.
    + intros x Hx. rewrite E1. now apply Q7.
    + intros x Hx. unfold unborn. rewrite E1. now apply Q8.
  - intros y Hy. unfold owning. rewrite E1. now apply O.
  - intros y Hy. unfold unborn. rewrite E1. now apply U.
  - intros x Hx. unfold dims_in. rewrite E1. now apply D.
  - intros NL b c Hb. destruct (Nat.eq_dec b (hnext (hp w))) as [->|N]; [congruence|]. rewrite E5 in Hb by exact N.
    rewrite E1. now apply (NL b c).
Qed.

Section Back.
Variables (lm : libm) (t : ety) (e : expr) (rho : state) (w : world).
Hypotheses (W : world_shape w) (EN : env_of w rho e) (WF : wf_expr rho e) (Sm : xsize rho e < 2 ^ 31).

Definition put (i : Z) : M world unit :=
  v <- elem lm e i ;; v' <- lift (cast t v) ;; wr (Some (hnext (hp w))) i v'.
Definition one (i : Z) : outcome val := v <-o xval lm rho e i ;; cast t v.

Lemma put_loop n : forall i w1 cs, grown w w1 cs -> Z.of_nat (length cs) = xsize rho e -> (i + n <= length cs)%nat ->
  exists w' cs', grown w w' cs' /\ length cs' = length cs /\ firstn i cs' = firstn i cs /\
    match omap one (zseq (Z.of_nat i) n) with
    | Done us => forN n (Z.of_nat i) (fun i => put i ;; _ <- lift (int_res (i + 1)) ;; ret tt) w1 = (Done tt, w') /\
        firstn (i + n) cs' = firstn i cs ++ map Some us
    | Thrown x => forN n (Z.of_nat i) (fun i => put i ;; _ <- lift (int_res (i + 1)) ;; ret tt) w1 = (Thrown x, w')
    | Undef u => True
    end.
Proof.
  induction n as [|n IH]; intros i w1 cs G L Hi; cbn [zseq omap forN].
  - exists w1, cs. split; [exact G|]. split; [reflexivity|]. split; [reflexivity|]. split; [reflexivity|].
    rewrite Nat.add_0_r, app_nil_r. reflexivity.
  - unfold one at 1.
    assert (El : elem lm e (Z.of_nat i) w1 = (xval lm rho e (Z.of_nat i), w1)).
    { apply pair_eta; [|apply elem_pure]. rewrite (elem_same lm w w1).
      - rewrite (elem_xval lm w rho e W EN WF); [reflexivity|lia|left; lia].
      - intros x _. now apply (grown_same w w1 cs). }
    destruct (xval lm rho e (Z.of_nat i)) as [v|x|u]; cbn [obind].
    2: { exists w1, cs. split; [exact G|]. split; [reflexivity|]. split; [reflexivity|]. unfold put, bind. now rewrite El. }
    2: { exists w1, cs. auto. }
    destruct (cast t v) as [v'|x|u] eqn:C; cbn [obind].
    2: { exists w1, cs. split; [exact G|]. split; [reflexivity|]. split; [reflexivity|]. unfold put. unfold bind at 1 2 3. rewrite El, C. reflexivity. }
    2: { exists w1, cs. auto. }
    destruct G as [E1 [E2 [E3 [E4 E5]]]].
    destruct (wrc_ok w1 (hnext (hp w)) (Z.of_nat i) (Some v') _ _ E4) as [w2 [Ew [U1 [U2 [U3 [U4 U5]]]]]]; [lia|].
    rewrite Nat2Z.id in U4.
    assert (G2 : grown w w2 (list_set cs i (Some v'))).
    { split; [congruence|]. split; [congruence|]. split; [congruence|]. split; [exact U4|]. intros b Hb. rewrite U5, E5; auto. }
    destruct (IH (S i) w2 _ G2) as [w' [cs' [G' [L' [F' R]]]]]; [now rewrite list_set_length|rewrite list_set_length; lia|].
    rewrite list_set_length in L'.
    assert (Fi : firstn (S i) (list_set cs i (Some v')) = firstn i cs ++ [Some v']).
    { clear - Hi. revert i Hi. induction cs as [|c cs IHc]; intros i Hi; cbn [length] in Hi; [lia|].
      destruct i as [|i]; [reflexivity|]. cbn [list_set firstn app]. f_equal. apply IHc. lia. }
    assert (Fj : firstn i cs' = firstn i cs).
    { rewrite Fi in F'.
      assert (X : firstn i (firstn (S i) cs') = firstn i cs').
      { rewrite firstn_firstn. f_equal. lia. }
      rewrite <- X, F'. rewrite firstn_app, firstn_firstn, firstn_length_le by lia. replace (i - i)%nat with 0%nat by lia.
      cbn [firstn]. rewrite app_nil_r. f_equal. lia. }
    exists w', cs'. split; [exact G'|]. split; [congruence|]. split; [exact Fj|].
    assert (Step : forall k, ((put (Z.of_nat i) ;; _ <- lift (int_res (Z.of_nat i + 1)) ;; ret tt) ;; k) w1 = k w2 :> outcome unit * world).
    { intros k. unfold put. rewrite !bind_assoc. rewrite (bind_done _ _ _ _ _ El), C, bind_assoc, bind_lift_done.
      unfold wr. rewrite (bind_done _ _ _ _ _ Ew). rewrite SubsetProofs.int_res_ok by lia. reflexivity. }
    replace (Z.of_nat i + 1) with (Z.of_nat (S i)) by lia.
    destruct (omap one (zseq (Z.of_nat (S i)) n)) as [us|x|u]; cbn [obind].
    + destruct R as [R1 R2]. split.
      * replace (Z.of_nat (S i)) with (Z.of_nat i + 1) in R1 |- * by lia. rewrite Step. exact R1.
      * replace (i + S n)%nat with (S i + n)%nat by lia. rewrite R2, Fi, <- app_assoc. reflexivity.
    + replace (Z.of_nat (S i)) with (Z.of_nat i + 1) in R |- * by lia. rewrite Step. exact R.
    + exact I.
Qed.
End Back.

Definition hidden (b : nat) (B : block) (w : world) : Prop := hid True (fun _ => False) b B w.

(** How a function ended, with what the enclosing scopes have to know. *)
Definition fended (lim : Z) (ty : nat -> ety) (V : list nat) (w w' : world) (out : outcome (option robj)) (r : fres) : Prop :=
  match r with
  | Given t us d => exists o, out = Done (Some o) /\ r_ty o = t /\ r_dim o = d /\
      hidden (r_mem o) (Live OwnR (map Some us)) w' /\ forall b B, B <> Unused -> hidden b B w -> b <> r_mem o
  | Failed e => out = Thrown e /\ e <> BadAlloc
  | Unfinished => out = Done None
  end /\ (r <> Unfinished -> exists s' : mstate, lalive w' lim ty [] V s') /\ (no_leak w -> no_leak w').

Lemma r_new_grown w n : 0 <= n <= hlim (hp w) -> exists w1, r_new n w = (Done (hnext (hp w)), w1) /\ grown w w1 (repeat None (Z.to_nat n)).
Proof.
  intros H. unfold r_new. replace (n <=? _) with true by (symmetry; apply Z.leb_le; lia). eexists. split; [reflexivity|].
  unfold grown. cbn. rewrite Nat.eqb_refl. repeat split; auto. intros b Hb. now rewrite (proj2 (Nat.eqb_neq _ _) Hb).
Qed.

Lemma grown_hidden w w' cs : world_shape w -> grown w w' cs -> hidden (hnext (hp w)) (Live OwnR cs) w'.
Proof.
  intros W [E1 [E2 [E3 [E4 E5]]]]. split; [intros _; rewrite E3; auto|]. split; [|intros o []]. intros o _ P. rewrite E1 in P.
  destruct (ptr_live _ _ _ W P) as [c [L _]]. rewrite (ws_fresh _ W) in L; [discriminate|lia].
Qed.

(** cpp2R: the result, and the vectors are the same. *)
Definition handed (lim : Z) (ty : nat -> ety) (H V : list nat) (s : mstate) (w w' : world) (out : outcome robj) (r : fres) : Prop :=
  match r with
  | Given t us d => exists o, out = Done o /\ r_ty o = t /\ r_dim o = d /\
      hidden (r_mem o) (Live OwnR (map Some us)) w' /\ (forall b B, B <> Unused -> hidden b B w -> b <> r_mem o)
  | Failed e => out = Thrown e /\ e <> BadAlloc
  | Unfinished => False
  end /\ lalive w' lim ty H V s /\ (no_leak w -> no_leak w').

Lemma cpp2R_back_in lm lim ty H V w (s : mstate) t e r : lalive w lim ty H V s -> incl (vars e) V -> back lm lim s t e r ->
  exists out w', cpp2R lm t e w = (out, w') /\ handed lim ty H V s w w' out r.
Proof.
  intros A I [WF [Sm [Fl [Bd X]]]]. pose proof (proj1 (proj1 A)) as R. pose proof (re_shape _ _ _ _ _ R) as W.
  pose proof (repr_env _ _ _ _ _ _ R I) as EN. pose proof (xsize_nonneg (fst s) e) as Nn.
  assert (Sz : esize w e = xsize (fst s) e) by (apply esize_xsize; auto).
  assert (Xd : xdims (snd s) e = xdims (dims_in w) e) by (apply (xdims_here V); [apply A|exact I]).
  assert (Body : forall m dim, (forall f : robj -> M world robj, exists w1, grown w w1 (repeat None (Z.to_nat (xsize (fst s) e))) /\
      bind m f w = f (mkR t (hnext (hp w)) dim) w1) ->
    match value lm (fst s) (in_R t) e with
    | Done us => exists w', (o <- m ;; for_int (esize w e) (fun i => v <- elem lm e i ;; v' <- lift (cast (in_R t) v) ;; wr (Some (r_mem o)) i v') ;; ret o) w =
        (Done (mkR t (hnext (hp w)) dim), w') /\ grown w w' (map Some us) /\ Z.of_nat (length us) = xsize (fst s) e
    | Thrown x => exists w' cs, (o <- m ;; for_int (esize w e) (fun i => v <- elem lm e i ;; v' <- lift (cast (in_R t) v) ;; wr (Some (r_mem o)) i v') ;; ret o) w =
        (Thrown x, w') /\ grown w w' cs /\ Z.of_nat (length cs) = xsize (fst s) e
    | Undef _ => True
    end).
  { intros m dim Hm. destruct (Hm (fun o => for_int (esize w e) (fun i => v <- elem lm e i ;; v' <- lift (cast (in_R t) v) ;; wr (Some (r_mem o)) i v') ;; ret o)) as [w1 [G E]].
    assert (L1 : Z.of_nat (length (repeat (@None val) (Z.to_nat (xsize (fst s) e)))) = xsize (fst s) e) by (rewrite repeat_length; lia).
    destruct (put_loop lm (in_R t) e (fst s) w W EN WF Sm (Z.to_nat (xsize (fst s) e)) 0 w1 _ G L1) as [w' [cs' [G' [L' [_ Q]]]]]; [rewrite repeat_length; lia|].
    rewrite repeat_length in L'. unfold value. fold (one lm (in_R t) e (fst s)) in *.
    change (Z.of_nat 0) with 0 in Q.
    destruct (omap (one lm (in_R t) e (fst s)) (zseq 0 (Z.to_nat (xsize (fst s) e)))) as [us|x|u] eqn:Om; [| |exact Logic.I].
    - destruct Q as [Q1 Q2]. exists w'. pose proof (value_done lm (fst s) (in_R t) e us Om) as [Lu _].
      split; [|split; [|exact Lu]].
      + rewrite E. cbn [r_mem]. unfold for_int. rewrite Sz. unfold bind at 1. fold (put lm (in_R t) e w).
        unfold put in Q1. rewrite Q1. reflexivity.
      + cbn [firstn app Nat.add] in Q2. rewrite firstn_all2 in Q2 by lia. now rewrite <- Q2.
    - exists w', cs'. split; [|split; [exact G'|lia]].
      rewrite E. cbn [r_mem]. unfold for_int. rewrite Sz. unfold bind at 1. unfold put in Q. rewrite Q. reflexivity. }
  assert (Fin : forall m dim, (forall f : robj -> M world robj, exists w1, grown w w1 (repeat None (Z.to_nat (xsize (fst s) e))) /\
      bind m f w = f (mkR t (hnext (hp w)) dim) w1) ->
      match value lm (fst s) (in_R t) e with Done us => r = Given t us dim | Thrown (Ass m) => r = Failed (Ass m) | _ => False end ->
      exists out w', (o <- m ;; for_int (esize w e) (fun i => v <- elem lm e i ;; v' <- lift (cast (in_R t) v) ;; wr (Some (r_mem o)) i v') ;; ret o) w =
        (out, w') /\ handed lim ty H V s w w' out r).
  { intros m dim Hm Hr. specialize (Body m dim Hm). destruct (value lm (fst s) (in_R t) e) as [us|[x|]|u]; try contradiction; subst r.
    - destruct Body as [w' [E [G L]]]. eexists _, w'. split; [exact E|].
      destruct (grown_lalive w w' (map Some us) lim ty H V s G) as [A' NL]; [rewrite map_length; lia|exact A|].
      split; [|split; [exact A'|exact NL]]. eexists. split; [reflexivity|]. split; [reflexivity|]. split; [reflexivity|].
      cbn [r_mem]. split; [now apply grown_hidden|]. intros b B NB [Hb _]. destruct (Hb Logic.I). lia.
    - destruct Body as [w' [cs [E [G L]]]]. eexists _, w'. split; [exact E|].
      destruct (grown_lalive w w' cs lim ty H V s G) as [A' NL]; [lia|exact A|].
      split; [split; [reflexivity|discriminate]|split; [exact A'|exact NL]]. }
  assert (Fit : 0 <= xsize (fst s) e <= hlim (hp w)) by (rewrite (re_lim _ _ _ _ _ R); lia).
  unfold cpp2R. rewrite r_cell_in, bind_get. rewrite eim_dims, <- Xd in *.
  destruct (xdims (snd s) e) as [[nr nc]|] eqn:Dm.
  - destruct (edim_dims w e nr nc) as [Er Ec]; [congruence|]. rewrite Er, Ec. destruct (Bd nr nc eq_refl) as [Br Bc].
    destruct (nr * nc =? xsize (fst s) e) eqn:Eq.
    + apply Z.eqb_eq in Eq. apply (Fin _ (Some (nr, nc))); [|exact X]. intros f.
      destruct (r_new_grown w (xsize (fst s) e) Fit) as [w1 [E1 G1]]. exists w1. split; [exact G1|].
      rewrite bind_assoc, bind_lift_done, bind_assoc, bind_lift_done, Eq, Sz.
      rewrite wrap64_small by lia. rewrite Z.eqb_refl, bind_assoc, bind_ass_true. unfold r_matrix. rewrite !to_int_id by auto.
      replace ((0 <=? nr) && (0 <=? nc)) with true by (symmetry; apply andb_true_intro; split; apply Z.leb_le; lia).
      rewrite bind_assoc, bind_ass_true, Eq.
      replace (xsize (fst s) e <=? int_max) with true by (symmetry; apply Z.leb_le; unfold int_max; lia).
      rewrite bind_assoc, bind_ass_true, bind_assoc. rewrite (bind_done _ _ _ _ _ E1). reflexivity.
    + apply Z.eqb_neq in Eq. subst r. eexists _, w. split.
      * rewrite bind_assoc, bind_lift_done, bind_assoc, bind_lift_done, Sz.
        rewrite wrap64_small by nia.
        replace (xsize (fst s) e =? nr * nc) with false by (symmetry; apply Z.eqb_neq; lia).
        rewrite bind_assoc, bind_ass_false. reflexivity.
      * split; [split; [reflexivity|discriminate]|split; [exact A|auto]].
  - apply (Fin _ None); [|exact X]. intros f. destruct (r_new_grown w (xsize (fst s) e) Fit) as [w1 [E1 G1]]. exists w1. split; [exact G1|].
    unfold r_vector. rewrite Sz, bind_assoc, (bind_done _ _ _ _ _ E1). reflexivity.
Qed.

Lemma cpp2R_back lm lim ty V w (s : mstate) t e r : lalive w lim ty [] V s -> incl (vars e) V -> back lm lim s t e r ->
  exists out w', (o <- cpp2R lm t e ;; ret (Some o)) w = (out, w') /\ fended lim ty V w w' out r.
Proof.
  intros A I B. destruct (cpp2R_back_in lm lim ty [] V w s t e r A I B) as [out [w' [E [X [Y Z]]]]].
  unfold bind. rewrite E. destruct r as [rt us d|x|].
  - destruct X as [o [-> X]]. eexists _, w'. split; [reflexivity|]. split; [exists o; auto|]. split; [intros _; now exists s|exact Z].
  - destruct X as [-> NB]. eexists _, w'. split; [reflexivity|]. split; [auto|]. split; [intros _; now exists s|exact Z].
  - destruct X.
Qed.

Lemma fended_before lim ty V w w1 w' out r : (forall b B, hidden b B w -> hidden b B w1) -> (no_leak w -> no_leak w1) ->
  fended lim ty V w1 w' out r -> fended lim ty V w w' out r.
Proof.
  intros H NL [X [Y Z]]. split; [|split; [exact Y|auto]]. destruct r as [t us d|e|]; auto.
  destruct X as [o [X1 [X2 [X3 [X4 X5]]]]]. exists o. split; [exact X1|]. split; [exact X2|]. split; [exact X3|]. split; [exact X4|].
  intros b B NB Hb. apply (X5 b B NB). now apply H.
Qed.

Lemma hidden_by {A} (m : M world A) w o w1 : (forall b B, hides True (fun _ => False) b B m) -> m w = (o, w1) -> forall b B, hidden b B w -> hidden b B w1.
Proof. intros H E b B Hb. specialize (H b B w Hb). now rewrite E in H. Qed.

Lemma life_ended {w0} lim ty V x m w out w1 r : ~ In x V -> m w = (out, w1) -> fended lim ty (x :: V) w0 w1 out r ->
  exists out' w', lifetime x m w = (out', w') /\ fended lim ty V w0 w' out' r.
Proof.
  intros Nx E [X [Y Z]]. unfold lifetime. rewrite E. destruct r as [t us d|e|].
  - destruct X as [o [-> [X2 [X3 [X4 X5]]]]]. destruct (Y ltac:(discriminate)) as [s' A].
    destruct (lalive_end_var lim ty w1 [] V s' x A Nx) as [w2 [E2 [A2 L2]]]. exists (Done (Some o)), w2. rewrite (bind_done _ _ _ _ _ E2).
    split; [reflexivity|]. split; [|split; [intros _; now exists s'|auto]]. exists o. split; [reflexivity|]. split; [exact X2|]. split; [exact X3|].
    split; [|exact X5]. eapply hidden_by; [intros; apply hides_vec_end|exact E2|exact X4].
  - destruct X as [-> NB]. destruct (Y ltac:(discriminate)) as [s' A]. destruct e as [m'|]; [|contradiction].
    destruct (lalive_end_var lim ty w1 [] V s' x A Nx) as [w2 [E2 [A2 L2]]]. exists (Thrown (Ass m')), w2. rewrite (bind_done _ _ _ _ _ E2).
    split; [reflexivity|]. split; [auto|split; [intros _; now exists s'|auto]].
  - subst out. exists (Done None), w1. split; [reflexivity|]. split; [reflexivity|]. split; [contradiction|exact Z].
Qed.

Lemma frun_follows N lm ty lim b : forall V w (s : mstate) r, lalive w lim ty [] V s -> fsem N lm ty lim V b s r ->
  exists out w', frun N lm b w = (out, w') /\ fended lim ty V w w' out r.
Proof.
  induction b as [t e|p k IH|c p IHp q IHq|e body IH|x t et m k IH|x t e k IH]; intros V w s r A X; cbn [frun fsem] in *;
    pose proof (proj1 (proj1 A)) as R; pose proof (proj2 A) as D;
    pose proof (lbuild_lmeans lm lim ty V w (fst s) (snd s) R D) as [LB LI];
    pose proof (lmeans_vars lm V (fst s) (snd s)) as [MV MI].
  - destruct X as [a [M X]]. rewrite bind_get, (LB _ _ M). destruct a as [e'|[m|]|u]; cbn [fgiven] in X; try contradiction.
    + rewrite bind_lift_done. eapply cpp2R_back; eauto.
    + subst r. exists (Thrown (Ass m)), w. split; [reflexivity|]. split; [split; [reflexivity|discriminate]|]. split; [intros _; now exists s|auto].
  - destruct X as [r1 [s1 [X1 X2]]]. destruct (lrun_follows N lm ty lim p [] V w s r1 s1 A X1) as [w1 [E1 [Q1 L1]]].
    assert (Hh : forall b B, hidden b B w -> hidden b B w1) by (eapply hidden_by; [intros; apply hides_lrun|exact E1]).
    destruct r1 as [| |x]; cbn [of_res lreached] in *.
    + rewrite (bind_done _ _ _ _ _ E1). destruct (IH V w1 s1 r Q1 X2) as [out [w' [E F]]]. exists out, w'. split; [exact E|].
      eapply fended_before; eauto.
    + subst r. rewrite (bind_done _ _ _ _ _ E1). exists (Done None), w1. split; [reflexivity|]. split; [reflexivity|]. split; [contradiction|exact L1].
    + subst r. unfold bind. rewrite E1. exists (Thrown x), w1. split; [reflexivity|].
      split; [split; [reflexivity|apply (lsem_tame N lm ty lim p [] V s x s1 X1)]|]. split; [intros _; now exists s1|exact L1].
  - destruct X as [o [Dv X]]. pose proof (lvalue_here lm lim ty V w (fst s) (snd s) R D c o) as E. destruct s as [rho sh]. specialize (E Dv).
    destruct o as [v|[m|]|u]; try contradiction; cbn [fgiven] in X.
    + rewrite (bind_done _ _ _ _ _ E). destruct (truth v); eauto.
    + subst r. unfold bind. rewrite E. exists (Thrown (Ass m)), w. split; [reflexivity|]. split; [split; [reflexivity|discriminate]|]. split; [intros _; now exists (rho, sh)|auto].
  - destruct X as [o [Dv X]]. pose proof (lvalue_here lm lim ty V w (fst s) (snd s) R D e o) as E. destruct s as [rho sh]. specialize (E Dv).
    destruct o as [v|[m|]|u]; try contradiction; cbn [fgiven] in X.
    + rewrite (bind_done _ _ _ _ _ E). eauto.
    + subst r. unfold bind. rewrite E. exists (Thrown (Ass m)), w. split; [reflexivity|]. split; [split; [reflexivity|discriminate]|]. split; [intros _; now exists (rho, sh)|auto].
  - destruct X as [l [d [Nx [Nt [Ne [Tx [Cr X]]]]]]].
    destruct (lmake_creates lm lim ty w [] V (fst s) (snd s) t m et l d (proj1 A) D Nt Cr) as [w1 [E1 Md]].
    rewrite (bind_done _ _ _ _ _ E1).
    destruct (lalive_declared lim ty w w1 [] V s x t et l d A Nx Nt Ne Tx Md) as [w2 [E2 [A2 L2]]].
    assert (Hh : forall b B, hidden b B w -> hidden b B w2).
    { intros b B Hb. eapply (hidden_by (vec_steal x t et ;; vec_end t)); [|exact E2|eapply hidden_by; [intros; apply hides_lmake|exact E1|exact Hb]].
      intros b' B'. apply hides_bind; [apply hides_vec_steal|intros _; apply hides_vec_end]. }
    rewrite <- bind_assoc, (bind_done _ _ _ _ _ E2).
    destruct (IH (x :: V) w2 _ r A2 X) as [out [w3 [E3 F3]]].
    destruct (life_ended lim ty V x (frun N lm k) w2 out w3 r Nx E3 F3) as [out' [w4 [E4 F4]]].
    exists out', w4. split; [exact E4|]. eapply fended_before; eauto.
  - destruct X as [Nx [Tx [a [M X]]]]. rewrite bind_get, (LB _ _ M).
    destruct a as [e'|[m|]|u]; try contradiction; cbn [fgiven] in X.
    2: { subst r. exists (Thrown (Ass m)), w. split; [reflexivity|]. split; [split; [reflexivity|discriminate]|]. split; [intros _; now exists s|auto]. }
    rewrite bind_lift_done. destruct X as [WF [Bs [Fl X]]]. pose proof (MV _ _ M) as Vs.
    pose proof (vec_of_expr_run lm w x t e' (fst s) (re_shape _ _ _ _ _ R)) as CR.
    unfold cons_result in CR. specialize (CR (proj2 (proj2 (proj1 A)) x Nx) (re_temp _ _ _ _ _ R x Nx)).
    assert (Nve : ~ In x (vars e')) by (intros Hx; apply Nx, Vs, Hx).
    specialize (CR Nve (fun y Hy => re_holds _ _ _ _ _ R y (Vs y Hy)) WF (proj1 Bs)).
    assert (Ft : fits w (xsize (fst s) e')) by (unfold fits; rewrite (re_lim _ _ _ _ _ R); lia). specialize (CR Ft).
    destruct (value lm (fst s) t e') as [us|[m|]|u]; try contradiction; cbn [fgiven] in X.
    + destruct CR as [w1 [E1 Md]]. rewrite (bind_done _ _ _ _ _ E1).
      destruct (lalive_var lim ty w w1 [] V s x t us _ (xdims (snd s) e') A Nx Tx Md) as [A1 L1].
      { rewrite shape_dims, (xdims_here V w (snd s) D e' Vs). cbn. unfold received. now destruct (xdims (dims_in w) e'). }
      { eapply vec_of_expr_cap; [|exact E1]. rewrite (size_here lim ty V w (fst s) R); auto. }
      destruct (IH (x :: V) w1 _ r A1 X) as [out [w3 [E3 F3]]].
      destruct (life_ended lim ty V x (frun N lm k) w1 out w3 r Nx E3 F3) as [out' [w4 [E4 F4]]].
      exists out', w4. split; [exact E4|]. refine (fended_before _ _ _ _ _ _ _ _ _ L1 F4).
      eapply hidden_by; [|exact E1]. intros b B. apply hides_vec_of_expr.
    + destruct CR as [w1 [E1 Md]]. unfold bind. rewrite E1. subst r. exists (Thrown (Ass m)), w1. split; [reflexivity|].
      destruct (lalive_not lim ty w w1 [] V s x A Nx Md) as [A1 L1]. split; [split; [reflexivity|discriminate]|]. split; [intros _; now exists s|exact L1].
Qed.

(* -------------------------------------------------------------- parameters *)

Lemma lalive_ext w lim ty H V (s s' : mstate) : lalive w lim ty H V s -> (forall x, In x V -> fst s' x = fst s x /\ snd s' x = snd s x) ->
  lalive w lim ty H V s'.
Proof.
  intros [[[Q1 Q2 Q3 Q4 Q5 Q6 Q7 Q8] [O U]] D] E. split; [split; [split|split]|]; auto.
  - intros x Hx. rewrite (proj1 (E x Hx)). now apply Q3.
  - intros x Hx. rewrite (proj2 (E x Hx)). now apply D.
Qed.
Lemma lalive_perm w lim ty V V' (s : mstate) : lalive w lim ty [] V s -> (forall x, In x V <-> In x V') -> lalive w lim ty [] V' s.
Proof.
  intros [[[Q1 Q2 Q3 Q4 Q5 Q6 Q7 Q8] [O U]] D] E. split; [split; [split|split]|]; auto; try (intros x Hx; apply E in Hx; auto).
  - intros x Hx. apply Q8. intros Y. apply Hx, E, Y.
  - intros y [].
  - intros y Hy. apply U. intros Y. apply Hy, E, Y.
Qed.

Lemma converted_len t xs ys : converted t xs ys -> length ys = length xs.
Proof. induction 1; cbn; congruence. Qed.

(** Vec<t> x; *)
Lemma default_there w x t : world_shape w -> unborn w (OD x) -> unborn w (OT x) ->
  exists w1, vec_default x t w = (Done tt, w1) /\ vstep w w1 x /\ world_shape w1 /\ (world_ok w -> world_ok w1) /\
    ob w1 (OD x) = store_default KBuffer t /\ ob w1 (OT x) = store_default KBuffer t.
Proof.
  intros W UD UT.
  destruct (ctor_default_done w (OD x) t W UD) as [w1 [E1 [S1 [O1 H1]]]].
  destruct (ctor_default_done w1 (OT x) t (s1_shape _ _ _ S1)) as [w2 [E2 [S2 [O2 H2]]]].
  { intros a Ha. destruct (s1_other _ _ _ S1 (OT x)) as [Q _]; [congruence|]. rewrite Q in Ha. now apply (UT a). }
  exists w2. unfold vec_default. rewrite (bind_done _ _ _ _ _ E1). split; [exact E2|].
  split. { eapply vstep_trans; eapply step1_vstep; [left; reflexivity|exact S1|right; reflexivity|exact S2]. }
  assert (O12 : ob w2 (OD x) = store_default KBuffer t).
  { destruct (s1_other _ _ _ S2 (OD x)) as [Q _]; [congruence|]. now rewrite Q. }
  split; [apply S2|]. split; [|auto]. intros WO. eapply step1_ok; [exact S2| |].
  - eapply step1_ok; [exact S1|exact WO|]. eapply inited_buffer; eauto; [apply S1|now rewrite O1].
  - eapply inited_buffer; eauto; [apply S2|now rewrite O2].
Qed.

(** Vec<t> x; x = r; *)
Lemma load_made w x t r xs ys : world_shape w -> unborn w (OD x) -> unborn w (OT x) -> r_has w r xs -> r_ty r = t ->
  converted t xs ys -> Z.of_nat (length xs) <= hlim (hp w) ->
  exists w1 w2, vec_default x t w = (Done tt, w1) /\ assign_R x r w1 = (Done tt, w2) /\ made w w2 x t ys (SpecForeign.dims_of r) /\
    cap (ob w2 (OD x)) < 2 ^ 31.
Proof.
  intros W UD UT RH TY CV HL. destruct (default_there w x t W UD UT) as [w1 [E1 [S1 [W1 [K1 [OD1 OT1]]]]]].
  destruct (init_sexp_done w1 (OD x) r xs ys) as [w2 [E2 [S2 [O2 H2]]]]; rewrite ?OD1; auto; try discriminate.
  { destruct RH as [RH RL]. split; [|exact RL]. eapply (vs_ext _ _ _ S1); [|exact RH]. discriminate. }
  { now rewrite (vs_lim _ _ _ S1). }
  exists w1, w2. split; [exact E1|]. split; [exact E2|].
  assert (T2 : ob w2 (OT x) = store_default KBuffer t).
  { destruct (s1_other _ _ _ S2 (OT x)) as [Q _]; [congruence|]. now rewrite Q. }
  split.
  - split; rewrite ?O2.
    + eapply vstep_trans; [exact S1|]. eapply step1_vstep; [left; reflexivity|exact S2].
    + intros WO. eapply step1_ok; [exact S2|auto|]. eapply inited_buffer; eauto; [apply S2|now rewrite O2].
    + exact H2.
    + rewrite OD1. cbn [mp store_default]. reflexivity.
    + unfold owning. rewrite O2, T2. split; reflexivity.
    + unfold ready, can_assign. rewrite O2, T2. split; [discriminate|left; reflexivity].
    + now rewrite OD1.
    + cbn [cap]. rewrite (converted_len _ _ _ CV). lia.
    + now exists t.
  - rewrite O2. cbn [cap]. destruct RH as [_ RL]. unfold int_max in RL. lia.
Qed.

Lemma load_wrong w x t r : world_shape w -> unborn w (OD x) -> unborn w (OT x) -> r_ty r <> t ->
  exists w1, vec_default x t w = (Done tt, w1) /\
    assign_R x r w1 = (Thrown (Ass "R object is not of type numeric"), w1) /\
    exists w2, vec_end x w1 = (Done tt, w2) /\ not_made w w2 x.
Proof.
  intros W UD UT TY. destruct (default_there w x t W UD UT) as [w1 [E1 [S1 [W1 [K1 [OD1 OT1]]]]]].
  exists w1. split; [exact E1|]. split.
  - unfold assign_R, init_sexp. rewrite bind_st, OD1. cbn [alloc store_default]. unfold r_is. cbn [sty].
    destruct t, (r_ty r); try congruence; reflexivity.
  - destruct (vec_end_gen w1 x W1) as [w2 [E2 [S2 [K2 [U1 U2]]]]]; [unfold owning; rewrite OD1, OT1; split; reflexivity|].
    exists w2. split; [exact E2|]. split; [eapply vstep_trans; eauto|]. split; [auto|]. split; [exact U1|exact U2].
Qed.

Lemma passed_kept w w' x s p : vstep w w' x -> passed w s p -> passed w' s p.
Proof.
  intros S1 [xs [[RH RL] [TY [CV [DM HL]]]]]. exists xs. split; [split; [|exact RL]|].
  - eapply (vs_ext _ _ _ S1); [|exact RH]. discriminate.
  - split; [exact TY|]. split; [exact CV|]. split; [exact DM|]. now rewrite (vs_lim _ _ _ S1).
Qed.

Lemma call_load N lm ty lim ps2 b r (s : mstate) : forall ps1 V w V1,
  (forall x, In x V1 <-> In x V \/ In x (map p_name ps1)) ->
  (forall w1, lalive w1 lim ty [] V1 s -> (forall p, In p ps2 -> passed w s p -> passed w1 s p) ->
     exists out w', call N lm ps2 b w1 = (out, w') /\ fended lim ty V1 w1 w' out r) ->
  NoDup (map p_name ps1) -> (forall p, In p ps1 -> ~ In (p_name p) V) -> (forall p, In p ps1 -> ty (p_name p) = p_type p) ->
  Forall (passed w s) ps1 -> lalive w lim ty [] V s ->
  exists out w', call N lm (ps1 ++ ps2) b w = (out, w') /\ fended lim ty V w w' out r.
Proof.
  induction ps1 as [|p ps1 IH]; intros V w V1 EV Q ND NV TY PA A.
  - cbn [app]. destruct (Q w) as [out [w' [E F]]]; auto.
    { eapply lalive_perm; [exact A|]. intros x. rewrite EV. cbn. tauto. }
    exists out, w'. split; [exact E|]. destruct F as [F1 [F2 F3]]. split; [exact F1|]. split; [|exact F3].
    intros NU. destruct (F2 NU) as [s' A']. exists s'. eapply lalive_perm; [exact A'|]. intros x. rewrite EV. cbn. tauto.
  - cbn [app call]. inversion PA as [|? ? P1 P2]; subst. cbn [map] in ND. inversion ND as [|? ? N1 N2]; subst.
    pose proof P1 as [xs [RH [RT [CV [DM HL]]]]].
    pose proof (NV p (or_introl eq_refl)) as Np.
    destruct (load_made w (p_name p) (p_type p) (p_obj p) xs (fst s (p_name p))) as [w1 [w2 [E1 [E2 [Md Ca]]]]]; auto.
    { apply (re_shape _ _ _ _ _ (proj1 (proj1 A))). } { apply (proj2 (proj2 (proj1 A))). exact Np. }
    { apply (re_temp _ _ _ _ _ (proj1 (proj1 A))). exact Np. }
    rewrite (bind_done _ _ _ _ _ E1).
    destruct (lalive_var lim ty w w2 [] V s (p_name p) (p_type p) _ _ (r_dim (p_obj p)) A Np (TY p (or_introl eq_refl)) Md) as [A2 L2]; [|exact Ca|].
    { unfold SpecForeign.dims_of, SpecCons.dims_of. destruct (r_dim (p_obj p)) as [[nr nc]|]; reflexivity. }
    destruct (IH (p_name p :: V) w2 V1) as [out [w3 [E3 F3]]]; auto.
    { intros x. rewrite EV. cbn [map In]. tauto. }
    { intros w4 A4 K4. apply Q; [exact A4|]. intros q Hq Pq. apply K4; [exact Hq|]. eapply passed_kept; [apply Md|exact Pq]. }
    { intros q Hq [E|Hv]; [|now apply (NV q (or_intror Hq))]. apply N1. rewrite E. now apply in_map. }
    { intros q Hq. apply TY. now right. }
    { eapply Forall_impl; [|exact P2]. intros q. apply passed_kept with (x := p_name p). apply Md. }
    { eapply lalive_ext; [exact A2|]. intros x Hx. cbn [fst snd]. destruct (Nat.eq_dec x (p_name p)) as [->|Nx].
      - rewrite setl_same, setd_same. auto.
      - rewrite setl_other, setd_other; auto. }
    assert (H1 : forall b B, hidden b B w -> hidden b B w1) by (eapply hidden_by; [intros; apply hides_vec_default|exact E1]).
    assert (H2 : forall b B, hidden b B w1 -> hidden b B w2) by (eapply hidden_by; [intros; apply hides_assign_R|exact E2]).
    assert (E4 : (assign_R (p_name p) (p_obj p) ;; call N lm (ps1 ++ ps2) b) w1 = (out, w3)) by (rewrite (bind_done _ _ _ _ _ E2); exact E3).
    assert (F4 : fended lim ty (p_name p :: V) w w3 out r) by (eapply fended_before; [|exact L2|exact F3]; auto).
    destruct (life_ended lim ty V (p_name p) _ w1 out w3 r Np E4 F4) as [out' [w5 [E5 F5]]]. eauto.
Qed.

Lemma rest_alive w lim ty (s : mstate) : at_rest w -> hlim (hp w) = lim -> lalive w lim ty [] [] s.
Proof.
  intros [W [K NL]] HL.
  assert (U : forall o, unborn w o) by (intros o a [P _]; now rewrite (proj2 (K o)) in P).
  split; [split; [split; auto|split]|]; auto; try (intros x Hx; destruct Hx).
Qed.

Lemma call_follows N lm ty lim ps b (s : mstate) r w : at_rest w -> hlim (hp w) = lim -> NoDup (map p_name ps) ->
  (forall p, In p ps -> ty (p_name p) = p_type p) -> Forall (passed w s) ps -> fsem N lm ty lim (map p_name ps) b s r ->
  exists out w', call N lm ps b w = (out, w') /\ fended lim ty [] w w' out r.
Proof.
  intros AR HL ND TY PA X. rewrite <- (app_nil_r ps).
  apply (call_load N lm ty lim [] b r s ps [] w (map p_name ps)); auto.
  - intros x. cbn. tauto.
  - intros w1 A _. cbn [call]. eapply frun_follows; eauto.
  - now apply rest_alive.
Qed.

Lemma nodup_front {A} (l m : list A) : NoDup (l ++ m) -> NoDup l.
Proof.
  induction l as [|a l IH]; intros H; [constructor|]. cbn in H. inversion H as [|? ? Na Nl]; subst. constructor; [|auto].
  intros Ha. apply Na, in_or_app. now left.
Qed.

(** A parameter whose R object has another type. *)
Lemma wrong_follows N lm ty lim ps p qs b (s : mstate) w : at_rest w -> hlim (hp w) = lim -> NoDup (map p_name (ps ++ p :: qs)) ->
  (forall p, In p ps -> ty (p_name p) = p_type p) -> Forall (passed w s) ps -> r_ty (p_obj p) <> p_type p ->
  exists out w', call N lm (ps ++ p :: qs) b w = (out, w') /\ fended lim ty [] w w' out (Failed (Ass "R object is not of type numeric")).
Proof.
  intros AR HL ND TY PA X. rewrite map_app in ND.
  assert (Np : ~ In (p_name p) (map p_name ps)).
  { intros H. apply (NoDup_remove_2 _ _ _ ND), in_or_app. now left. }
  assert (ND' : NoDup (map p_name ps)) by (now apply nodup_front in ND). clear ND.
  apply (call_load N lm ty lim (p :: qs) b _ s ps [] w (map p_name ps)); auto.
  - intros x. cbn. tauto.
  - intros w1 A _. cbn [call].
    destruct (load_wrong w1 (p_name p) (p_type p) (p_obj p)) as [w2 [E1 [E2 [w3 [E3 NM]]]]]; auto.
    { apply (re_shape _ _ _ _ _ (proj1 (proj1 A))). } { apply (proj2 (proj2 (proj1 A))). exact Np. }
    { apply (re_temp _ _ _ _ _ (proj1 (proj1 A))). exact Np. }
    destruct (lalive_not lim ty w1 w3 [] (map p_name ps) s (p_name p) A Np NM) as [A3 L3].
    rewrite (bind_done _ _ _ _ _ E1). unfold lifetime, bind at 1. rewrite E2, (bind_done _ _ _ _ _ E3).
    eexists _, w3. split; [reflexivity|]. split; [split; [reflexivity|discriminate]|]. split; [intros _; now exists s|exact L3].
  - now apply rest_alive.
Qed.

(** The memory of R and of others is hidden from the vectors when they rest. *)
Lemma rest_hidden w b B : at_rest w -> hblk (hp w) b = B -> B <> Unused -> hidden b B w.
Proof.
  intros [W [K NL]] E NU. split; [intros _; split; [exact E|]|].
  - destruct (Nat.lt_ge_cases b (hnext (hp w))) as [L|L]; [exact L|]. rewrite (ws_fresh w W b L) in E. congruence.
  - split; [intros o _; rewrite (proj2 (K o)); discriminate|intros o []].
Qed.

Lemma call_kinds N lm ps b w o : (forall o, kd (ob w o) = KBuffer) -> kd (ob (snd (call N lm ps b w)) o) = KBuffer.
Proof.
  intros K. apply (hides_call False (fun _ => True) 0%nat Unused N lm ps b w); [|exact Logic.I]. split; [tauto|]. split; [tauto|]. auto.
Qed.

(** What a caller sees of a call that is described. *)
Lemma fended_seen N lm ps b ty lim w out w' r : at_rest w -> call N lm ps b w = (out, w') -> fended lim ty [] w w' out r ->
  ends_with w w' out r /\ foreign_kept w w' /\ (r <> Unfinished -> at_rest w' /\ hlim (hp w') = lim).
Proof.
  intros AR E [X [Y Z]]. split; [|split].
  - destruct r as [t us d|e|]; cbn [ends_with]; [|tauto|exact X].
    destruct X as [o [X1 [X2 [X3 [X4 X5]]]]]. exists o. split; [exact X1|]. split; [exact X2|]. split; [exact X3|].
    split; [apply X4; exact Logic.I|].
    assert (Q : forall B, hblk (hp w) (r_mem o) = B -> B <> Unused -> False).
    { intros B EB NB. apply (X5 (r_mem o) B NB); [now apply rest_hidden|reflexivity]. }
    destruct (hblk (hp w) (r_mem o)) eqn:EB; [reflexivity|destruct (Q _ eq_refl); discriminate..].
  - intros a own cs NO Ha. pose proof (rest_hidden w a _ AR Ha ltac:(discriminate)) as Hh.
    apply (hides_call True (fun _ => False) a _ N lm ps b w) in Hh. rewrite E in Hh. now apply Hh.
  - intros NU. destruct (Y NU) as [s' A]. destruct AR as [W [K NL]].
    assert (W' : world_shape w') by apply (re_shape _ _ _ _ _ (proj1 (proj1 A))).
    assert (K' : forall o, kd (ob w' o) = KBuffer).
    { intros o. pose proof (call_kinds N lm ps b w o (fun o => proj1 (K o))) as Q. now rewrite E in Q. }
    assert (U : forall o a, ~ owns (ob w' o) a).
    { intros [y|y] a; [apply (proj2 (proj2 (proj1 A)) y); intros []|apply (re_temp _ _ _ _ _ (proj1 (proj1 A)) y); intros []]. }
    split; [split; [exact W'|split]|apply (re_lim _ _ _ _ _ (proj1 (proj1 A)))].
    + intros o. split; [apply K'|]. destruct (ptr (ob w' o)) as [a|] eqn:P; [|reflexivity].
      exfalso. apply (U o a). split; [exact P|]. unfold owner_of. now rewrite K'.
    + intros a cs Ha. assert (N0 : no_leak w) by (intros a' cs' H'; destruct (NL a' cs' H')).
      destruct (Z N0 a cs Ha) as [o Ho]. now apply (U o a).
Qed.

(* --------------------------------------------------- more rounds of loops *)

Definition fmore (m m' : M world (option robj)) : Prop := forall w o w', m w = (o, w') -> o <> Done None -> m' w = (o, w').

Lemma fmore_bind {A} (m : M world A) f f' : (forall a, fmore (f a) (f' a)) -> fmore (bind m f) (bind m f').
Proof. intros F w o w'. unfold bind. destruct (m w) as [[a|e|u] w1]; auto. apply F. Qed.
Lemma fmore_lifetime x m m' : fmore m m' -> fmore (lifetime x m) (lifetime x m').
Proof.
  intros F w o w'. unfold lifetime. specialize (F w). destruct (m w) as [[[r|]|[e|]|u] w1].
  - rewrite (F _ _ eq_refl) by discriminate. auto.
  - intros [= <- <-] X. contradiction.
  - rewrite (F _ _ eq_refl) by discriminate. auto.
  - rewrite (F _ _ eq_refl) by discriminate. auto.
  - rewrite (F _ _ eq_refl) by discriminate. auto.
Qed.

Lemma frun_more lm b : forall N N', (N <= N')%nat -> fmore (frun N lm b) (frun N' lm b).
Proof.
  induction b as [t e|p k IH|c p IHp q IHq|e body IH|x t et m k IH|x t e k IH]; intros N N' L; cbn [frun].
  - intros w o w' E _. exact E.
  - intros w o w'. unfold bind. pose proof (lrun_more lm p N N' L w) as Q. destruct (lrun N lm p w) as [[[]|e|u] w1].
    + rewrite (Q _ _ eq_refl) by discriminate. now apply IH.
    + intros [= <- <-] X. contradiction.
    + rewrite (Q _ _ eq_refl) by discriminate. auto.
    + rewrite (Q _ _ eq_refl) by discriminate. auto.
  - apply fmore_bind. intros v. destruct (truth v); auto.
  - apply fmore_bind. intros v. auto.
  - repeat (apply fmore_bind; intros _). apply fmore_lifetime. auto.
  - apply fmore_bind. intros w. apply fmore_bind. intros e'. apply fmore_bind. intros _. apply fmore_lifetime. auto.
Qed.

Lemma call_more lm b : forall ps N N', (N <= N')%nat -> fmore (call N lm ps b) (call N' lm ps b).
Proof.
  induction ps as [|p ps IH]; intros N N' L; cbn [call]; [now apply frun_more|].
  apply fmore_bind. intros _. apply fmore_lifetime. apply fmore_bind. intros _. auto.
Qed.
