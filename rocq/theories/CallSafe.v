(** Memory safety of functions called from R. *)
From Coq Require Import ZArith List String Bool Lia.
From Verif Require Import Base Num StoreModel VecModel SubsetModel AllocModel ProgModel LangModel OutModel ForeignModel CallModel
  Spec SpecExpr SpecVec SpecHist SpecProg SpecSub SpecAlloc SpecForeign SpecSafe SpecLang SpecCall SpecSession
  StoreProofs StoreOps StoreThms StoreThms2 VecProofs VecThms VecAssign VecEval AllocProofs2 ProgProofs LendProofs SafeProofs LangProofs
  OutProofs ForeignProofs HideProofs CallProofs.
Import ListNotations.
Open Scope Z_scope.
Local Notation length := List.length (only parsing).

Section Mode.
Variable ini : mode.

(** The result object is there and no vector has its memory. *)
Definition given_to_R (w : world) (o : robj) : Prop :=
  exists us, hidden (r_mem o) (Live OwnR (map Some us)) w /\ Forall (r_elem (r_ty o)) us.

Definition fends (L : list nat) (r : outcome (option robj)) (w' : world) : Prop :=
  match r with
  | Done (Some o) => sound_at ini L w' /\ given_to_R w' o
  | Done None => exists L', incl L L' /\ sound_at ini L' w'
  | Thrown (Ass _) => sound_at ini L w'
  | Thrown BadAlloc => True
  | Undef u => allowed ini u
  end.

Lemma fends_quiet {A} L (P : A -> Prop) O m (f : A -> M world (option robj)) w : sound_at ini L w -> ob w = O -> quiet ini L O P m ->
  (forall a w1, sound_at ini L w1 -> ob w1 = O -> P a -> let (r, w') := f a w1 in fends L r w') ->
  let (r, w') := bind m f w in fends L r w'.
Proof.
  intros S E H K. specialize (H w S E). unfold bind. destruct (m w) as [[a|e|u] w1]; [|destruct e; [apply H|exact I]|exact H].
  destruct H as [S1 [E1 Pa]]. now apply K.
Qed.
Lemma fends_lift {A} L (P : A -> Prop) r (f : A -> M world (option robj)) w : sound_at ini L w -> good ini P r ->
  (forall a, P a -> let (r, w') := f a w in fends L r w') ->
  let (r, w') := bind (lift r) f w in fends L r w'.
Proof. intros S G K. unfold bind, lift. destruct r as [a|[m|]|u]; cbn in G; [now apply K|exact S|exact I|exact G]. Qed.
Lemma fends_safely {A} L L' (m : M world A) (f : A -> M world (option robj)) w : (let (r, w1) := m w in safely ini L L' r w1) ->
  (forall a w1, m w = (Done a, w1) -> sound_at ini L' w1 -> let (r, w') := f a w1 in fends L r w') ->
  let (r, w') := bind m f w in fends L r w'.
Proof. intros H K. unfold bind. destruct (m w) as [[a|[e|]|u] w1]; cbn [safely] in H; [now apply K|exact H|exact I|exact H]. Qed.
Lemma fends_makes {A} L x t (m : M world A) (f : A -> M world (option robj)) w : (let (r, w1) := m w in makes ini L x t r w1) ->
  (forall a w1, sound_at ini (x :: L) w1 -> crafted w1 x t -> let (r, w') := f a w1 in fends L r w') ->
  let (r, w') := bind m f w in fends L r w'.
Proof. intros H K. unfold bind. destruct (m w) as [[a|[e|]|u] w1]; cbn [makes] in H; [destruct H; now apply K|exact H|exact I|exact H]. Qed.

Lemma given_kept {A} (m : M world A) w r w' o : (forall b B, hides True (fun _ => False) b B m) -> m w = (r, w') -> given_to_R w o -> given_to_R w' o.
Proof. intros H E [us [Hh F]]. exists us. split; [|exact F]. eapply hidden_by; eauto. Qed.

Lemma fends_life L x (m : M world (option robj)) w : ~ In x L -> (let (r, w1) := m w in fends (x :: L) r w1) ->
  let (r, w') := lifetime x m w in fends L r w'.
Proof.
  intros Nx H. unfold lifetime. destruct (m w) as [[[o|]|[e|]|u] w1]; cbn [fends] in H.
  - destruct H as [S G]. destruct (sound_pop ini L w1 x S Nx) as [w2 [E2 S2]]. rewrite (bind_done _ _ _ _ _ E2). split; [exact S2|].
    eapply given_kept; [|exact E2|exact G]. intros b B. apply hides_vec_end.
  - destruct H as [L' [I' S']]. exists L'. split; [|exact S']. intros y Hy. apply I'. now right.
  - destruct (sound_pop ini L w1 x H Nx) as [w2 [E2 S2]]. rewrite (bind_done _ _ _ _ _ E2). exact S2.
  - exact I.
  - exact H.
Qed.

(* ---------------------------------------------------------------- cpp2R *)

Lemma sound_grown L w w' cs : sound_at ini L w -> grown w w' cs -> Z.of_nat (length cs) <= 2 ^ 60 -> sound_at ini L w'.
Proof.
  intros [A B C D F T] G Lc. pose proof (grown_same _ _ _ A G) as S. pose proof (grown_shape _ _ _ A G Lc) as W'.
  pose proof G as [E1 [E2 [E3 [E4 E5]]]]. split.
  - exact W'.
  - congruence.
  - intros x Hx. destruct (C x Hx) as [Fx Ix]. split; [eapply fit_same; [apply S|now rewrite E1|exact Fx]|]. eapply inited_same; [apply S|exact Ix].
  - intros x Hx. unfold unborn. rewrite E1. now apply D.
  - intros b c Hb. destruct (Nat.eq_dec b (hnext (hp w))) as [->|N]; [congruence|]. rewrite E5 in Hb by exact N. rewrite E1. now apply (F b c).
  - eapply ext_there; [|exact T]. intros b own c NO Hb. rewrite E5; [exact Hb|]. intros ->. rewrite (ws_fresh _ A) in Hb by lia. discriminate.
Qed.

Lemma cast_elem t v u : cast (r_cell t) v = Done u -> r_elem t u.
Proof.
  destruct t, v; cbn; intros E; try (injection E as <-; exact I); try discriminate.
  all: unfold f2int in E; repeat match type of E with context [if ?b then _ else _] => destruct b | context [match ?x with _ => _ end] => destruct x end; try discriminate.
  all: cbn in E; try discriminate; injection E as <-; exact I.
Qed.

(** Rf_allocMatrix gets the extents modulo 2^32; the number of elements is the
    same if it is below 2^31. *)
Lemma extents_agree nr nc n : 0 <= n < 2 ^ 31 -> n = wrap64 (nr * nc) -> 0 <= to_int nr * to_int nc <= int_max -> to_int nr * to_int nc = n.
Proof.
  intros Bn En Bm. unfold int_max in Bm.
  assert (T : forall z, exists k, to_int z = z + k * 2 ^ 32).
  { intros z. unfold to_int. pose proof (Z.div_mod z (2 ^ 32) ltac:(lia)) as D. cbv zeta. destruct (z mod 2 ^ 32 <? 2 ^ 31).
    - exists (- (z / 2 ^ 32)). lia.
    - exists (- (z / 2 ^ 32) - 1). lia. }
  destruct (T nr) as [k1 K1], (T nc) as [k2 K2].
  assert (M : (to_int nr * to_int nc) mod 2 ^ 32 = n mod 2 ^ 32).
  { rewrite En, K1, K2. unfold wrap64.
    replace ((nr + k1 * 2 ^ 32) * (nc + k2 * 2 ^ 32)) with (nr * nc + (k1 * nc + k2 * nr + k1 * k2 * 2 ^ 32) * 2 ^ 32) by ring.
    rewrite Z.mod_add by lia. replace (2 ^ 64) with (2 ^ 32 * 2 ^ 32) by reflexivity. rewrite Z.rem_mul_r by lia.
    rewrite (Z.mul_comm (2 ^ 32) (_ mod _)), Z.mod_add by lia. now rewrite Z.mod_mod by lia. }
  rewrite !Z.mod_small in M by lia. exact M.
Qed.

Section Out.
Variables (lm : libm) (t : ety) (e : expr) (L V : list nat) (w : world).
Hypotheses (SO : sound_at ini L w) (VL : incl V L) (F : fits_in V e).

Lemma put_safe n : forall i w1 cs us, grown w w1 cs -> (i + n = length cs)%nat -> Z.of_nat (length cs) <= 2 ^ 60 ->
  firstn i cs = map Some us -> Forall (r_elem t) us ->
  let (r, w') := forN n (Z.of_nat i) (fun i => put lm (r_cell t) e w i ;; _ <- lift (int_res (i + 1)) ;; ret tt) w1 in
  match r with
  | Done _ => exists us, grown w w' (map Some us) /\ Z.of_nat (length us) <= 2 ^ 60 /\ Forall (r_elem t) us
  | Thrown _ => exists cs, grown w w' cs /\ Z.of_nat (length cs) <= 2 ^ 60
  | Undef u => allowed ini u
  end.
Proof.
  induction n as [|n IH]; intros i w1 cs us G Hi B Fi Fu; cbn [forN].
  - cbn. exists us. assert (E : cs = map Some us) by (rewrite <- Fi; symmetry; apply firstn_all2; lia). rewrite <- E.
    split; [exact G|]. split; [|exact Fu]. rewrite E, map_length in B. exact B.
  - pose proof (sound_grown L w w1 cs SO G B) as S1.
    pose proof (good_elem ini lm L V w1 S1 VL e (Z.of_nat i) F ltac:(lia)) as Ge.
    pose proof (elem_pure lm e (Z.of_nat i) w1) as Pe.
    unfold put. rewrite !bind_assoc. unfold bind at 1. destruct (elem lm e (Z.of_nat i) w1) as [[v|x|u] w2]; cbn in Ge, Pe; subst w2.
    2: now exists cs. 2: exact Ge.
    rewrite bind_assoc. pose proof (good_cast ini (r_cell t) v) as Gc. unfold bind at 1. cbn [lift]. destruct (cast (r_cell t) v) as [v'|x|u] eqn:C; cbn in Gc.
    2: now exists cs. 2: exact Gc.
    destruct G as [E1 [E2 [E3 [E4 E5]]]].
    destruct (wrc_ok w1 (hnext (hp w)) (Z.of_nat i) (Some v') _ _ E4) as [w2 [Ew [U1 [U2 [U3 [U4 U5]]]]]]; [lia|].
    rewrite Nat2Z.id in U4.
    assert (G2 : grown w w2 (list_set cs i (Some v'))).
    { split; [congruence|]. split; [congruence|]. split; [congruence|]. split; [exact U4|]. intros b Hb. rewrite U5, E5; auto. }
    unfold wr. rewrite (bind_done _ _ _ _ _ Ew).
    pose proof (good_int ini (Z.of_nat i + 1)) as Gi. unfold bind at 1 2. cbn [lift]. destruct (int_res (Z.of_nat i + 1)) as [z|x|u]; cbn in Gi.
    3: exact Gi. 2: { exists (list_set cs i (Some v')). split; [exact G2|]. now rewrite list_set_length. }
    cbn [ret]. replace (Z.of_nat i + 1) with (Z.of_nat (S i)) by lia.
    apply (IH (S i) w2 (list_set cs i (Some v')) (us ++ [v']) G2); rewrite ?list_set_length; [lia|exact B| |].
    + rewrite map_app, <- Fi. clear - Hi. revert i Hi. induction cs as [|c cs IHc]; intros i Hi; cbn [length] in Hi; [lia|].
      destruct i as [|i]; [reflexivity|]. cbn [list_set firstn app]. f_equal. apply IHc. lia.
    + apply Forall_app. split; [exact Fu|]. apply Forall_cons; [|apply Forall_nil]. eapply cast_elem; eauto.
Qed.

Lemma cpp2R_safe : esize w e < 2 ^ 31 ->
  let (r, w') := cpp2R lm t e w in
  match r with
  | Done o => sound_at ini L w' /\ given_to_R w' o
  | Thrown (Ass _) => sound_at ini L w'
  | Thrown BadAlloc => True
  | Undef u => allowed ini u
  end.
Proof.
  intros Sm. pose proof (so_shape _ _ _ SO) as W. pose proof (so_lim _ _ _ SO) as Lim.
  assert (Nn : 0 <= esize w e) by (apply (fits_size ini L V w SO e F)).
  unfold cpp2R. rewrite bind_get.
  assert (Fin : forall d, esize w e <= hlim (hp w) ->
    let (r, w') := (a <- r_new (esize w e) ;;
      _ <- for_int (esize w e) (fun i => v <- elem lm e i ;; v' <- lift (cast (r_cell t) v) ;; wr (Some a) i v') ;; ret (mkR t a d)) w in
    match r with Done o => sound_at ini L w' /\ given_to_R w' o | Thrown (Ass _) => sound_at ini L w' | Thrown BadAlloc => True | Undef u => allowed ini u end).
  { intros d Hl. destruct (r_new_grown w (esize w e) (conj Nn Hl)) as [w1 [E1 G1]]. rewrite (bind_done _ _ _ _ _ E1).
    pose proof (put_safe (Z.to_nat (esize w e)) 0 w1 _ [] G1) as Q. rewrite repeat_length in Q.
    specialize (Q eq_refl ltac:(lia) eq_refl ltac:(constructor)). unfold for_int. unfold put in Q. cbn [Z.of_nat] in Q.
    unfold bind at 1. destruct (forN _ _ _ w1) as [[[]|[m|]|u] w2].
    - destruct Q as [us [G2 [B2 F2]]]. cbn. split; [eapply sound_grown; [exact SO|exact G2|now rewrite map_length]|].
      exists us. cbn [r_mem r_ty]. split; [eapply grown_hidden; eauto|exact F2].
    - destruct Q as [cs [G2 B2]]. eapply sound_grown; eauto.
    - exact I.
    - exact Q. }
  assert (Big : forall d, hlim (hp w) < esize w e ->
    (a <- r_new (esize w e) ;;
      _ <- for_int (esize w e) (fun i => v <- elem lm e i ;; v' <- lift (cast (r_cell t) v) ;; wr (Some a) i v') ;; ret (mkR t a d)) w = (Thrown BadAlloc, w)).
  { intros d Hl. unfold bind at 1. unfold r_new. replace (esize w e <=? hlim (hp w)) with false by (symmetry; apply Z.leb_gt; exact Hl). reflexivity. }
  assert (All : forall d, let (r, w') := (a <- r_new (esize w e) ;;
      _ <- for_int (esize w e) (fun i => v <- elem lm e i ;; v' <- lift (cast (r_cell t) v) ;; wr (Some a) i v') ;; ret (mkR t a d)) w in
    match r with Done o => sound_at ini L w' /\ given_to_R w' o | Thrown (Ass _) => sound_at ini L w' | Thrown BadAlloc => True | Undef u => allowed ini u end).
  { intros d. destruct (Z.le_gt_cases (esize w e) (hlim (hp w))) as [H|H]; [now apply Fin|]. now rewrite (Big d H). }
  destruct (eim w e).
  - rewrite bind_assoc. pose proof (good_dim ini w rows e) as D1. unfold bind at 1. cbn [lift].
    destruct (edim rows w e) as [nr|[m|]|u]; cbn in D1; [|exact SO|exact I|exact D1].
    rewrite bind_assoc. pose proof (good_dim ini w cols e) as D2. unfold bind at 1. cbn [lift].
    destruct (edim cols w e) as [nc|[m|]|u]; cbn in D2; [|exact SO|exact I|exact D2].
    rewrite bind_assoc. destruct (Z.eqb_spec (esize w e) (wrap64 (nr * nc))) as [Ew|Ew]; [|exact SO]. rewrite bind_ass_true.
    unfold r_matrix. cbv zeta. rewrite bind_assoc.
    destruct ((0 <=? to_int nr) && (0 <=? to_int nc)) eqn:P; [|exact SO]. rewrite bind_ass_true, bind_assoc.
    destruct (Z.leb_spec (to_int nr * to_int nc) int_max) as [Q|Q]; [|exact SO]. rewrite bind_ass_true.
    apply andb_true_iff in P. rewrite !Z.leb_le in P.
    rewrite (extents_agree nr nc (esize w e)) by (auto; nia). rewrite bind_assoc.
    exact (All (Some (to_int nr, to_int nc))).
  - unfold r_vector. rewrite bind_assoc. exact (All None).
Qed.
End Out.

(** An expression that is not a subset has at most as many elements as a vector
    or one. *)
Lemma small_esize lm L V w : sound_at ini L w -> incl V L -> forall e e', no_subset e -> incl (lvars e) V -> lbuild lm w e = Done e' -> esize w e' < 2 ^ 31.
Proof.
  intros SO VL. pose proof (so_shape _ _ _ SO) as W. pose proof (so_lim _ _ _ SO) as Lim.
  induction e; intros e' Ns He E; cbn [no_subset lvars lbuild] in *.
  - injection E as <-. cbn [esize]. destruct (so_live _ _ _ SO x) as [[_ [[K _]|[_ [Q1 [Q2 _]]]]] _]; [apply VL, He; now left| |lia].
    destruct (ws_store _ W (OD x)) as [_ [_ S]]. destruct (ptr (ob w (OD x))) as [a|]; [|lia].
    destruct S as [_ [cs [B [S _]]]]. destruct (ws_len _ W _ _ _ B) as [_ Q]. specialize (Q ltac:(unfold owner_of; now rewrite K)). lia.
  - injection E as <-. cbn. lia.
  - destruct (lbuild lm w e1) as [l|x|u] eqn:E1; try discriminate. cbn [obind] in E.
    destruct (lbuild lm w e2) as [r|x|u] eqn:E2; try discriminate. cbn [obind] in E. injection E as <-. cbn [esize].
    apply incl_app_inv in He. destruct He as [H1 H2]. destruct Ns as [N1 N2].
    specialize (IHe1 l N1 H1 eq_refl). specialize (IHe2 r N2 H2 eq_refl).
    repeat match goal with |- context [if ?b then _ else _] => destruct b end; lia.
  - destruct (lbuild lm w e) as [l|x|u] eqn:E1; try discriminate. cbn [obind] in E. injection E as <-. cbn [esize]. now apply IHe.
  - destruct Ns.
  - destruct Ns.
  - destruct (fst (at_vec x i w)); try discriminate. cbn [obind] in E. injection E as <-. cbn. lia.
  - destruct (fst (at_mat x i j w)); try discriminate. cbn [obind] in E. injection E as <-. cbn. lia.
  - destruct (lbuild lm w e); try discriminate. cbn [obind] in E. destruct (fst (at_expr lm _ i w)); try discriminate. cbn [obind] in E. injection E as <-. cbn. lia.
  - destruct (lbuild lm w e); try discriminate. cbn [obind] in E. destruct (fst (at_mat_expr lm _ i j w)); try discriminate. cbn [obind] in E. injection E as <-. cbn. lia.
  - destruct (lbuild lm w e); try discriminate. cbn [obind] in E. injection E as <-. cbn. lia.
Qed.

(* ---------------------------------------------------------- the parameters *)

Lemma real_converted t xs : Forall (r_elem t) xs -> exists ys, converted t xs ys.
Proof.
  induction 1 as [|v xs Hv _ [ys IH]]; [exists []; apply Forall2_nil|].
  assert (exists u, cast t v = Done u) as [u E] by (destruct t, v; cbn in Hv; try destruct Hv; cbn; eauto).
  exists (u :: ys). now apply Forall2_cons.
Qed.

Lemma real_kept w w' r : (forall b own cs, own <> OwnCpp -> hblk (hp w) b = Live own cs -> hblk (hp w') b = Live own cs) -> r_real w r -> r_real w' r.
Proof. intros H [xs [E F]]. exists xs. split; [apply H; [discriminate|exact E]|exact F]. Qed.

Lemma load_safe L w x t r : sound_at ini L w -> ~ In x (wrapped ini) -> ~ In x L -> r_real w r ->
  exists w1, vec_default x t w = (Done tt, w1) /\ vstep w w1 x /\ sound_at ini (x :: L) w1 /\
    let (o, w2) := assign_R x r w1 in
    match o with
    | Done _ => vstep w w2 x /\ sound_at ini (x :: L) w2
    | Thrown (Ass _) => w2 = w1
    | Thrown BadAlloc => True
    | Undef u => False
    end.
Proof.
  intros SO NR Nx [xs [RB RF]]. pose proof (so_shape _ _ _ SO) as W. destruct (so_dead _ _ _ SO x Nx) as [UD UT].
  destruct (default_there w x t W UD UT) as [w1 [E1 [S1 [W1 [K1 [OD1 OT1]]]]]].
  assert (RB1 : hblk (hp w1) (r_mem r) = Live OwnR (map Some xs)) by (eapply (vs_ext _ _ _ S1); [discriminate|exact RB]).
  assert (Ow : owning w1 x) by (unfold owning; rewrite OD1, OT1; split; reflexivity).
  assert (In1 : LendProofs.inited ini w1 x).
  { intros _. exists []. split; [now rewrite OD1|]. intros i Hi. cbn in Hi. lia. }
  exists w1. split; [exact E1|]. split; [exact S1|]. split; [apply (sound_new ini L w w1 x); auto; now apply fit_owning|].
  destruct (r_is t r) eqn:Ri.
  2: { assert (E2 : assign_R x r w1 = (Thrown (Ass "R object is not of type numeric"), w1)).
       { unfold assign_R, init_sexp. rewrite bind_st, OD1. cbn [alloc store_default sty]. rewrite Ri. reflexivity. }
       now rewrite E2. }
  assert (Et : r_ty r = t) by (destruct t; unfold r_is in Ri; destruct (r_ty r); try discriminate; reflexivity).
  destruct (Z.le_gt_cases (Z.of_nat (length xs)) int_max) as [Hn|Hn].
  2: { assert (E2 : assign_R x r w1 = (Thrown (Ass "long vectors not supported yet"), w1)).
       { unfold assign_R, init_sexp. rewrite bind_st, OD1. cbn [alloc store_default sty]. rewrite Ri.
         rewrite (bind_done (ret tt) _ _ _ _ eq_refl), bind_ass_true.
         assert (RL : r_length r w1 = (Thrown (Ass "long vectors not supported yet"), w1)).
         { unfold r_length. rewrite RB1, map_length. replace (Z.of_nat (length xs) <=? int_max) with false by (symmetry; apply Z.leb_gt; lia). reflexivity. }
         unfold bind at 1. now rewrite RL. }
       now rewrite E2. }
  destruct (Z.le_gt_cases (Z.of_nat (length xs)) (hlim (hp w))) as [Hl|Hl].
  - rewrite <- Et in *. destruct (real_converted _ _ RF) as [ys CV].
    destruct (load_made w x (r_ty r) r xs ys W UD UT (conj RB Hn) eq_refl CV Hl) as [w1' [w2 [F1 [F2 [M _]]]]].
    assert (w1' = w1) by congruence. subst w1'. rewrite F2. destruct M as [M1 M2 M3 _ M5 _ _ _ _].
    split; [exact M1|]. apply (sound_new ini L w w2 x); auto; [now apply fit_owning|]. intros _. now exists ys.
  - assert (E2 : fst (assign_R x r w1) = Thrown BadAlloc).
    { unfold assign_R, init_sexp. rewrite bind_st, OD1. cbn [alloc store_default sty]. rewrite Ri.
      rewrite (bind_done (ret tt) _ _ _ _ eq_refl), bind_ass_true.
      assert (RL : r_length r w1 = (Done (Z.of_nat (length xs)), w1)).
      { unfold r_length. rewrite RB1, map_length. replace (Z.of_nat (length xs) <=? int_max) with true by (symmetry; apply Z.leb_le; lia). reflexivity. }
      rewrite (bind_done _ _ _ _ _ RL), !bind_upd. unfold bind at 1. unfold new_. cbn [set_ob hp].
      rewrite (vs_lim _ _ _ S1). replace (Z.of_nat (length xs) <=? hlim (hp w)) with false by (symmetry; apply Z.leb_gt; lia).
      now rewrite ?andb_false_r. }
    destruct (assign_R x r w1) as [o w2]. cbn in E2. subst o. exact I.
Qed.

Lemma rest_sound w : at_rest w -> hlim (hp w) < 2 ^ 31 -> there (lenders ini) w -> sound_at ini [] w.
Proof.
  intros [W [K NL]] HL T. assert (U : forall o, unborn w o) by (intros o a [P _]; now rewrite (proj2 (K o)) in P).
  split; auto.
  - intros x Hx; destruct Hx.
  - intros a cs Ha. destruct (NL a cs Ha).
Qed.

End Mode.

Section Ini.
Variable ini : bool.

Lemma frun_ends N lm b : forall V w, scoped_fn V b -> (ini = true -> writes_all_fn b) -> sound_at ini V w ->
  let (r, w') := frun N lm b w in fends ini V r w'.
Proof.
  induction b; intros V w Sc Wr SO; cbn [scoped_fn writes_all_fn frun] in *;
    pose proof (incl_refl V) as VL; pose proof (good_lbuild ini lm V V w SO VL) as [BE BI].
  - destruct Sc as [He Ns]. rewrite bind_get. pose proof (BE e He) as G. unfold bind at 1. cbn [lift].
    destruct (lbuild lm w e) as [e'|[m|]|u] eqn:Eb; cbn in G; [|exact SO|exact I|exact G].
    pose proof (cpp2R_safe ini lm t e' V V w SO VL G (small_esize ini lm V V w SO VL e e' Ns He Eb)) as Q.
    unfold bind. destruct (cpp2R lm t e' w) as [[o|[m|]|u] w1]; exact Q.
  - destruct Sc as [Sp Sk]. pose proof (lrun_ends ini N lm p V V w VL Sp (fun E => proj1 (Wr E)) (keeps_nil p) SO) as Q.
    unfold bind. destruct (lrun N lm p w) as [[[|]|[m|]|u] w1]; try exact Q.
    apply IHb; [exact Sk|intros E; apply (Wr E)|exact Q].
  - destruct Sc as [Hc [Sa Sb]]. eapply (fends_quiet ini V (fun _ => True) (ob w)); [exact SO|reflexivity|now apply (quiet_condition ini lm V V)|].
    intros v w1 S1 _ _. destruct (truth v); [apply IHb1|apply IHb2]; auto; intros E; apply (Wr E).
  - destruct Sc as [Hc Sb]. eapply (fends_quiet ini V (fun _ => True) (ob w)); [exact SO|reflexivity|now apply (quiet_condition ini lm V V)|].
    intros v w1 S1 _ _. apply H; auto.
  - destruct Sc as [Ne [Nx [Ns [Et [Hm Sb]]]]]. subst t. eapply (fends_makes ini); [now apply (lmake_makes ini lm V V)|]. intros _ w1 S1 C1.
    destruct (steal_sound ini V w1 x s _ S1 (fun H => H) C1 Nx Ns Ne) as [w2 [E2 S2]].
    rewrite <- bind_assoc, (bind_done _ _ _ _ _ E2). apply fends_life; [exact Nx|]. apply IHb; auto.
  - destruct Sc as [Nx [He Sb]]. rewrite bind_get. eapply (fends_lift ini); [exact SO|now apply BE|]. intros e' F.
    eapply (fends_safely ini V (x :: V)); [apply declare_safely; auto; apply F|].
    intros _ w1 _ S1. apply fends_life; [exact Nx|]. apply IHb; auto.
Qed.

Lemma call_ends N lm b ps : forall L w, NoDup (map p_name ps) -> (forall p, In p ps -> ~ In (p_name p) L) ->
  scoped_fn (rev (map p_name ps) ++ L) b -> (ini = true -> writes_all_fn b) -> (forall p, In p ps -> r_real w (p_obj p)) -> sound_at ini L w ->
  let (r, w') := call N lm ps b w in fends ini L r w'.
Proof.
  induction ps as [|p ps IH]; intros L w ND NL Sc Wr Re SO; cbn [call].
  - now apply frun_ends.
  - cbn [map rev] in ND, Sc. apply NoDup_cons_iff in ND. destruct ND as [Np ND]. rewrite <- app_assoc in Sc. cbn [app] in Sc.
    assert (Nx : ~ In (p_name p) L) by (apply NL; now left).
    destruct (load_safe ini L w (p_name p) (p_type p) (p_obj p) SO (fun q => q) Nx (Re p (or_introl eq_refl))) as [w1 [E1 [S1 [SO1 Q]]]].
    rewrite (bind_done _ _ _ _ _ E1). apply fends_life; [exact Nx|].
    unfold bind. destruct (assign_R (p_name p) (p_obj p) w1) as [[[]|[m|]|u] w2].
    + destruct Q as [S2 SO2]. apply IH; auto.
      * intros q Hq [E|Hl]; [|apply (NL q); [now right|exact Hl]]. apply Np. rewrite E. now apply in_map.
      * intros q Hq. eapply real_kept; [|apply Re; right; exact Hq]. intros a own cs NO Ha. eapply (vs_ext _ _ _ S2); eauto.
    + subst w2. exact SO1.
    + exact I.
    + destruct Q.
Qed.

Lemma sound_rest N lm ps b w r w' : at_rest w -> call N lm ps b w = (r, w') -> sound_at ini [] w' -> at_rest w'.
Proof.
  intros [W [K NL]] E [A B C D F]. assert (K' : forall o, kd (ob w' o) = KBuffer).
  { intros o. pose proof (call_kinds N lm ps b w o (fun o => proj1 (K o))) as Q. now rewrite E in Q. }
  assert (U : forall o a, ~ owns (ob w' o) a) by (intros [y|y] a; apply (D y); intros Hy; destruct Hy).
  split; [exact A|]. split.
  - intros o. split; [apply K'|]. destruct (ptr (ob w' o)) as [a|] eqn:P; [|reflexivity].
    exfalso. apply (U o a). split; [exact P|]. unfold owner_of. now rewrite K'.
  - intros a cs Ha. destruct (F a cs Ha) as [o Ho]. now apply (U o a).
Qed.

Lemma call_foreign N lm ps b w r w' : at_rest w -> call N lm ps b w = (r, w') -> foreign_kept w w'.
Proof.
  intros AR E a own cs NO Ha. pose proof (rest_hidden w a _ AR Ha ltac:(discriminate)) as Hh.
  apply (hides_call True (fun _ => False) a _ N lm ps b w) in Hh. rewrite E in Hh. now apply Hh.
Qed.

(** One call. *)
Lemma call_safe N lm ps b w : at_rest w -> hlim (hp w) < 2 ^ 31 -> NoDup (map p_name ps) -> scoped_fn (rev (map p_name ps)) b ->
  (ini = true -> writes_all_fn b) -> (forall p, In p ps -> r_real w (p_obj p)) ->
  let (r, w') := call N lm ps b w in
  foreign_kept w w' /\
  match r with
  | Done (Some o) => at_rest w' /\ hlim (hp w') < 2 ^ 31 /\ r_real w' o
  | Thrown (Ass _) => at_rest w' /\ hlim (hp w') < 2 ^ 31
  | Done None | Thrown BadAlloc => True
  | Undef u => allowed ini u
  end.
Proof.
  intros AR HL ND Sc Wr Re.
  pose proof (call_ends N lm b ps [] w ND (fun _ _ H => H) ltac:(now rewrite app_nil_r) Wr Re (rest_sound ini w AR HL (fun _ _ _ _ q => match q with end))) as Q.
  destruct (call N lm ps b w) as [r w'] eqn:E. split; [eapply call_foreign; eauto|].
  destruct r as [[o|]|[m|]|u]; cbn [fends] in Q; auto.
  - destruct Q as [S [us [[Hh _] F]]]. split; [eapply sound_rest; eauto|]. split; [apply S|]. exists us. split; [apply Hh; exact Logic.I|exact F].
  - split; [eapply sound_rest; eauto|apply Q].
Qed.

(** Any number of calls. *)
Lemma session_safe N lm s : forall av w, at_rest w -> hlim (hp w) < 2 ^ 31 -> session_ok av s -> (ini = true -> session_writes_all s) ->
  (forall o, In o av -> r_real w o) ->
  let (r, w') := run_session N lm s w in
  foreign_kept w w' /\ match r with inl _ => at_rest w' | inr (Undef u) => allowed ini u | inr _ => True end.
Proof.
  induction s as [|ps b k IH]; intros av w AR HL Ok Wr Re; cbn [run_session session_ok session_writes_all] in *.
  - split; [|exact AR]. intros a own cs _ Ha. exact Ha.
  - destruct Ok as [ND [Ia [Sc [KN KS]]]].
    pose proof (call_safe N lm ps b w AR HL ND Sc (fun E => proj1 (Wr E)) (fun p Hp => Re _ (Ia p Hp))) as Q.
    destruct (call N lm ps b w) as [[[o|]|[m|]|u] w1]; destruct Q as [FK Q].
    + destruct Q as [A1 [L1 R1]]. specialize (IH (Some o) (o :: av) w1 A1 L1 (KS o) (fun E => proj2 (Wr E) (Some o))).
      assert (Re1 : forall r, In r (o :: av) -> r_real w1 r) by (intros r [<-|Hr]; [exact R1|]; eapply real_kept; [exact FK|now apply Re]).
      specialize (IH Re1). destruct (run_session N lm (k (Some o)) w1) as [r w2]. destruct IH as [F2 IH]. split; [|exact IH].
      intros a own cs NO Ha. apply F2; [exact NO|]. now apply FK.
    + split; [exact FK|exact I].
    + destruct Q as [A1 L1]. specialize (IH None av w1 A1 L1 KN (fun E => proj2 (Wr E) None)).
      assert (Re1 : forall r, In r av -> r_real w1 r) by (intros r Hr; eapply real_kept; [exact FK|now apply Re]).
      specialize (IH Re1). destruct (run_session N lm (k None) w1) as [r w2]. destruct IH as [F2 IH]. split; [|exact IH].
      intros a own cs NO Ha. apply F2; [exact NO|]. now apply FK.
    + split; [exact FK|exact I].
    + split; [exact FK|exact Q].
Qed.
End Ini.
