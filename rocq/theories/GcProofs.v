(** Lemmas about conversions under R's garbage collector. *)
From Coq Require Import String ZArith List Bool Lia Arith FunctionalExtensionality.
From Verif Require Import Base Num StoreModel VecModel OutModel RgcModel Spec SpecExpr SpecVec SpecSub SpecOut SpecGc CapProofs StoreProofs StoreOps
  VecProofs SubsetProofs VecThms OutProofs.
Import ListNotations.
Open Scope Z_scope.
Local Notation length := List.length (only parsing).

Lemma gassoc {A B C} (m : M rworld A) (f : A -> M rworld B) (g : B -> M rworld C) s :
  bind (bind m f) g s = bind m (fun a => bind (f a) g) s.
Proof. unfold bind. destruct (m s) as [[]]; reflexivity. Qed.
Lemma gdone {A B} (m : M rworld A) (f : A -> M rworld B) a s s1 : m s = (Done a, s1) -> bind m f s = f a s1.
Proof. unfold bind. now intros ->. Qed.
Lemma gget {A} (f : rworld -> M rworld A) s : bind get f s = f s s.
Proof. reflexivity. Qed.
Lemma glift {A B} (a : A) (f : A -> M rworld B) s : bind (lift (Done a)) f s = f a s.
Proof. reflexivity. Qed.
Lemma gass_true {B} m (f : unit -> M rworld B) s : bind (ass true m) f s = f tt s.
Proof. reflexivity. Qed.
Lemma gass_false {B} m (f : unit -> M rworld B) s : bind (ass false m) f s = (Thrown (Ass m), s).
Proof. reflexivity. Qed.
Lemma inw_eq {A} (m : M world A) s r w' : m (rw s) = (r, w') -> inw m s = (r, mkRW w' (pstk s) (root s)).
Proof. intros E. unfold inw. now rewrite E. Qed.

Definition swept (G : collector) (s : rworld) : world := rw (snd (collect G s)).

Lemma kept_holds s a : kept s a = true <-> holds_on s a.
Proof.
  unfold kept, holds_on. rewrite orb_true_iff, existsb_exists. split; intros [H|H]; auto; right.
  - destruct H as [b [I E]]. apply Nat.eqb_eq in E. now subst.
  - exists a. now rewrite Nat.eqb_refl.
Qed.

Lemma swept_ob G s : ob (swept G s) = ob (rw s). Proof. reflexivity. Qed.
Lemma swept_next G s : hnext (hp (swept G s)) = hnext (hp (rw s)). Proof. reflexivity. Qed.
Lemma swept_blk G s a : hblk (hp (swept G s)) a = hblk (hp (rw s)) a \/
  (exists cs, hblk (hp (rw s)) a = Live OwnR cs) /\ ~ holds_on s a /\ hblk (hp (swept G s)) a = Freed.
Proof.
  simpl. destruct (hblk (hp (rw s)) a) as [|[]|] eqn:B; auto.
  destruct (G s a && negb (kept s a)) eqn:E; auto. right. split; [eauto|]. split; [|reflexivity].
  intros H. apply kept_holds in H. rewrite H, andb_false_r in E. discriminate.
Qed.

Lemma swept_same G s e x : secured s e -> In x (vars e) -> same_obj (rw s) (swept G s) (OD x).
Proof.
  intros Se Ix. split; [reflexivity|]. intros a P. destruct (swept_blk G s a) as [E|[[cs B] [N _]]]; auto.
  exfalso. apply N. eapply Se; eauto.
Qed.

Lemma swept_below G s e : world_shape (rw s) -> below (swept G s) e.
Proof. intros W. exact (below_shape (rw s) e W). Qed.
Lemma swept_fresh G s : world_shape (rw s) -> hblk (hp (swept G s)) (hnext (hp (swept G s))) = Unused.
Proof. intros W. simpl. now rewrite (ws_fresh _ W _ (le_n _)). Qed.

Lemma swept_elems G s lm e (us : list val) (c : ety) : secured s e ->
  (forall i, (i < length us)%nat -> exists v,
      elem lm e (Z.of_nat i) (rw s) = (Done v, rw s) /\ cast c v = Done (nth i us (VB false))) ->
  forall i, (i < length us)%nat -> exists v,
      elem lm e (Z.of_nat i) (swept G s) = (Done v, swept G s) /\ cast c v = Done (nth i us (VB false)).
Proof.
  intros Se H i Hi. destruct (H i Hi) as [v [E C]]. exists v. split; auto. apply pair_eta; [|apply elem_pure].
  rewrite (elem_same lm (rw s)); [now rewrite E|]. intros x. now apply swept_same.
Qed.

Lemma swept_shape G s : world_shape (rw s) -> all_secured s -> world_shape (swept G s).
Proof.
  intros W AS. constructor.
  - intros a Ha. simpl. now rewrite (ws_fresh _ W a Ha).
  - intros o. pose proof (ws_store _ W o) as S. unfold store_shape in *. rewrite swept_ob.
    destruct S as [S1 [S2 S3]]. split; [exact S1|]. split; [exact S2|].
    destruct (ptr (ob (rw s) o)) as [a|] eqn:P; [|exact S3]. destruct S3 as [A [cs [B L]]]. split; [exact A|]. exists cs. split; [|exact L].
    destruct (swept_blk G s a) as [E|[[c B'] [N _]]]; [now rewrite E|]. exfalso. apply N. eapply AS; eauto.
  - intros o1 o2 a. apply (ws_sep _ W).
  - apply (ws_lim _ W).
  - intros a own cs B. destruct (swept_blk G s a) as [E|[_ [_ F]]]; [|congruence]. rewrite E in B. exact (ws_len _ W a own cs B).
Qed.

Lemma got_shape w w' o t us dim : world_shape w -> r_got w w' o t us dim -> r_mem o = hnext (hp w) ->
  hnext (hp w') = S (hnext (hp w)) -> hlim (hp w') = hlim (hp w) -> Z.of_nat (length us) <= 2 ^ 60 -> world_shape w'.
Proof.
  intros W [_ [_ [G3 [G4 [G5 G6]]]]] Em Hx Hl Hn. constructor.
  - intros a Ha. rewrite G6 by lia. apply (ws_fresh _ W). lia.
  - intros q. rewrite G5. pose proof (ws_store _ W q) as S. unfold store_shape in *. destruct S as [S1 [S2 S3]].
    split; [exact S1|]. split; [exact S2|]. destruct (ptr (ob w q)) as [a|]; [|exact S3]. destruct S3 as [A [cs [B L]]].
    split; [exact A|]. exists cs. split; [|exact L]. rewrite G6; [exact B|]. intros ->. congruence.
  - intros o1 o2 a. rewrite G5. apply (ws_sep _ W).
  - rewrite Hl. apply (ws_lim _ W).
  - intros a own cs B. rewrite Hl. destruct (Nat.eq_dec a (r_mem o)) as [->|N].
    + rewrite G3 in B. assert (own = OwnR /\ cs = map Some us) as [-> ->] by (split; congruence). rewrite map_length. split; [exact Hn|discriminate].
    + rewrite G6 in B by exact N. exact (ws_len _ W a own cs B).
Qed.

Lemma r_got_swept G s w' o t us dim st : world_shape (rw s) -> r_got (swept G s) w' o t us dim -> hblk (hp (rw s)) (r_mem o) = Unused ->
  r_mem o = hnext (hp (rw s)) -> hnext (hp w') = S (hnext (hp (rw s))) -> hlim (hp w') = hlim (hp (rw s)) -> Z.of_nat (length us) <= int_max ->
  st = pstk s -> r_got_g s (mkRW w' st (root s)) o t us dim.
Proof.
  intros W Gt Fr Em Hx Hl Hn ->. assert (SH : all_secured s -> world_shape w').
  { intros AS. apply (got_shape (swept G s) w' o t us dim); auto; [now apply swept_shape|]. unfold int_max in Hn. lia. }
  destruct Gt as [G1 [G2 [G3 [_ [G5 G6]]]]]. unfold r_got_g, only_garbage. cbn [rw pstk root].
  split; [exact G1|]. split; [exact G2|]. split; [exact G3|]. split; [exact Fr|]. split; [|split; [reflexivity|split; [reflexivity|exact SH]]].
  split; [exact G5|]. split; [exact Hl|]. intros a Ha. rewrite (G6 a Ha). apply swept_blk.
Qed.

(** What follows once the object is allocated and protected. *)
Lemma g_tail G s lm t e us dim : world_shape (rw s) -> secured s e -> esize (rw s) e = Z.of_nat (length us) ->
  (forall i, (i < length us)%nat -> exists v,
      elem lm e (Z.of_nat i) (rw s) = (Done v, rw s) /\ cast (r_cell t) v = Done (nth i us (VB false))) ->
  Z.of_nat (length us) <= int_max ->
  exists s', (inw (for_int (esize (rw s) e) (fun i => v <- elem lm e i ;; v' <- lift (cast (r_cell t) v) ;;
                wr (Some (r_mem (mkR t (hnext (hp (rw s))) dim))) i v')) ;; unprotect 1 ;; ret (mkR t (hnext (hp (rw s))) dim))
      (mkRW (r_world (swept G s) (Z.of_nat (length us))) (hnext (hp (rw s)) :: pstk s) (root s)) =
        (Done (mkR t (hnext (hp (rw s))) dim), s') /\
    r_got_g s s' (mkR t (hnext (hp (rw s))) dim) t us dim /\
    (forall a, a <> hnext (hp (rw s)) -> hblk (hp (rw s')) a = hblk (hp (swept G s)) a).
Proof.
  intros W Se Sz El Hm.
  assert (Sz' : esize (swept G s) e = Z.of_nat (length us)).
  { rewrite (esize_same (rw s) (swept G s) e); auto. intros x. now apply swept_same. }
  destruct (cpp2R_from lm t e us (swept G s) dim (swept_below G s e W) (swept_fresh G s W) Sz' (swept_elems G s lm e us _ Se El) Hm)
    as [w' [E [Gt [Hx Hl]]]].
  rewrite Sz' in E. cbn [r_mem]. rewrite swept_next in E. unfold bind in E at 1.
  exists (mkRW w' (pstk s) (root s)). split.
  - unfold bind at 1, inw. cbn [rw pstk root]. rewrite Sz.
    destruct (for_int (Z.of_nat (length us)) _ (r_world (swept G s) (Z.of_nat (length us)))) as [[[]| |] w1] eqn:Ef;
      cbn in E; try discriminate. injection E as <-. reflexivity.
  - split; [apply (r_got_swept G); auto; exact (ws_fresh _ W _ (le_n _))|]. exact (proj2 (proj2 (proj2 (proj2 (proj2 Gt))))).
Qed.

Lemma g_vector_alloc G s t n : n <= hlim (hp (rw s)) ->
  (o <- r_vector_g G t n ;; protect o) s =
    (Done (mkR t (hnext (hp (rw s))) None), mkRW (r_world (swept G s) n) (hnext (hp (rw s)) :: pstk s) (root s)).
Proof.
  intros H. unfold r_vector_g. rewrite gassoc. unfold bind at 1. change (collect G s) with (Done tt, snd (collect G s)). cbv iota beta.
  unfold bind at 1, inw. change (rw (snd (collect G s))) with (swept G s). unfold r_vector.
  rewrite (bind_done _ _ _ _ _ (r_new_done (swept G s) n H)). reflexivity.
Qed.

Lemma cpp2R_g_flat G lm t e rho us s : world_shape (rw s) -> env_of (rw s) rho e -> wf_expr rho e -> value_of lm rho (in_R t) e us ->
  eim (rw s) e = false -> Z.of_nat (length us) <= int_max -> Z.of_nat (length us) <= hlim (hp (rw s)) -> secured s e ->
  exists o s', cpp2R_g G lm t e s = (Done o, s') /\ r_got_g s s' o t us None /\
    (forall a, a <> r_mem o -> hblk (hp (rw s')) a = hblk (hp (swept G s)) a).
Proof.
  intros W EN F V Fl Hm HL Se. destruct (value_elems _ _ _ _ _ _ W EN F V) as [Sz El].
  destruct (g_tail G s lm t e us None W Se Sz El Hm) as [s' [E Gt]].
  exists (mkR t (hnext (hp (rw s))) None), s'. split; [|exact Gt].
  unfold cpp2R_g. rewrite gget. cbv zeta. rewrite Fl.
  assert (A : (o <- r_vector_g G t (esize (rw s) e) ;; protect o) s = 
    (Done (mkR t (hnext (hp (rw s))) None), mkRW (r_world (swept G s) (Z.of_nat (length us))) (hnext (hp (rw s)) :: pstk s) (root s)))
    by (rewrite Sz; now apply g_vector_alloc).
  rewrite (gdone _ _ _ _ _ A). exact E.
Qed.

Lemma r_matrix_done w t r c n : 0 <= r < 2 ^ 31 -> 0 <= c < 2 ^ 31 -> r * c = n -> n <= int_max -> n <= hlim (hp w) ->
  r_matrix t r c w = (Done (mkR t (hnext (hp w)) (Some (r, c))), r_world w n).
Proof.
  intros Hr Hc RC Hm HL. unfold r_matrix. rewrite !to_int_id by auto.
  replace ((0 <=? r) && (0 <=? c)) with true by (symmetry; apply andb_true_intro; split; apply Z.leb_le; lia).
  rewrite bind_ass_true, RC. replace (n <=? int_max) with true by (symmetry; now apply Z.leb_le).
  rewrite bind_ass_true. now rewrite (bind_done _ _ _ _ _ (r_new_done w n HL)).
Qed.

Lemma g_matrix_alloc G s t r c n : 0 <= r < 2 ^ 31 -> 0 <= c < 2 ^ 31 -> r * c = n -> n <= int_max -> n <= hlim (hp (rw s)) ->
  (o <- r_matrix_g G t r c ;; protect o) s =
    (Done (mkR t (hnext (hp (rw s))) (Some (r, c))), mkRW (r_world (swept G s) n) (hnext (hp (rw s)) :: pstk s) (root s)).
Proof.
  intros Hr Hc RC Hm HL. unfold r_matrix_g. rewrite !to_int_id by auto.
  replace ((0 <=? r) && (0 <=? c)) with true by (symmetry; apply andb_true_intro; split; apply Z.leb_le; lia).
  rewrite gassoc, gass_true. rewrite RC. replace (n <=? int_max) with true by (symmetry; now apply Z.leb_le).
  rewrite gassoc, gass_true. rewrite gassoc. unfold bind at 1. change (collect G s) with (Done tt, snd (collect G s)). cbv iota beta.
  unfold bind at 1, inw. change (rw (snd (collect G s))) with (swept G s).
  rewrite (r_matrix_done (swept G s) t r c n Hr Hc RC Hm HL). reflexivity.
Qed.

Lemma cpp2R_g_matrix G lm t e rho us s r c : world_shape (rw s) -> env_of (rw s) rho e -> wf_expr rho e ->
  value_of lm rho (in_R t) e us -> shaped (rw s) rho r c e -> 0 <= r < 2 ^ 31 -> 0 <= c < 2 ^ 31 ->
  Z.of_nat (length us) <= int_max -> Z.of_nat (length us) <= hlim (hp (rw s)) -> secured s e ->
  exists o s', cpp2R_g G lm t e s = (Done o, s') /\ r_got_g s s' o t us (Some (r, c)).
Proof.
  intros W EN F V Sh Hr Hc Hm HL Se. destruct (value_elems _ _ _ _ _ _ W EN F V) as [Sz El].
  destruct (shaped_facts _ _ _ _ _ EN Sh) as [Im [R [C [Xs _]]]].
  assert (RC : r * c = Z.of_nat (length us)) by (destruct V as [L _]; lia).
  destruct (g_tail G s lm t e us (Some (r, c)) W Se Sz El Hm) as [s' [E [Gt _]]].
  exists (mkR t (hnext (hp (rw s))) (Some (r, c))), s'. split; [|exact Gt].
  unfold cpp2R_g. rewrite gget. cbv zeta. rewrite Im, R, C. rewrite gassoc, glift, gassoc, glift.
  rewrite RC, wrap64_small by (unfold int_max in Hm; lia). rewrite Sz at 1. rewrite Z.eqb_refl.
  rewrite gassoc, gass_true.
  rewrite (gdone _ _ _ _ _ (g_matrix_alloc G s t r c _ Hr Hc RC Hm HL)). exact E.
Qed.

Lemma cpp2R_g_mismatch G lm t e s r c : eim (rw s) e = true -> edim rows (rw s) e = Done r -> edim cols (rw s) e = Done c ->
  esize (rw s) e <> wrap64 (r * c) -> exists m, cpp2R_g G lm t e s = (Thrown (Ass m), s).
Proof.
  intros Im R C N. unfold cpp2R_g. rewrite gget. cbv zeta. rewrite Im, R, C. rewrite gassoc, glift, gassoc, glift.
  replace (esize (rw s) e =? wrap64 (r * c)) with false by (symmetry; now apply Z.eqb_neq).
  rewrite gassoc, gass_false. eauto.
Qed.

Lemma forN_stop {W} (f : Z -> M W unit) k j : forall i w w1 x w2, forN k i f w = (Done tt, w1) -> f (i + Z.of_nat k) w1 = (x, w2) ->
  (forall u, x <> Done u) -> forN (k + S j) i f w = (x, w2).
Proof.
  intros i w w1 x w2 E F N. rewrite (forN_app f k (S j) i w w1 E). cbn [forN]. unfold bind. rewrite F.
  destruct x as [[]| |]; auto. now elim (N tt).
Qed.

Definition stop {A B} (o : outcome A) (d : B) : outcome B :=
  match o with Done _ => Done d | Thrown x => Thrown x | Undef u => Undef u end.

(** The loop stops at the first element that cannot be read, and what was
    protected stays so. *)
Lemma g_stop G lm t e us s n o : world_shape (rw s) -> eim (rw s) e = false ->
  esize (rw s) e = Z.of_nat n -> (length us < n)%nat -> Z.of_nat n <= int_max -> Z.of_nat n <= hlim (hp (rw s)) ->
  (forall i, (i < length us)%nat -> exists v,
      elem lm e (Z.of_nat i) (swept G s) = (Done v, swept G s) /\ cast (r_cell t) v = Done (nth i us (VB false))) ->
  fst (elem lm e (Z.of_nat (length us)) (swept G s)) = o -> (forall v, o <> Done v) ->
  exists w' a, cpp2R_g G lm t e s = (stop o (mkR t a None), mkRW w' (a :: pstk s) (root s)).
Proof.
  intros W Fl Sz Hn Hm HL El Eo No.
  set (us' := us ++ repeat (VB false) (n - length us)).
  assert (Lus : length us' = n) by (unfold us'; rewrite app_length, repeat_length; lia).
  destruct (copy_loop lm t e us' (swept G s) (length us) (swept_below G s e W)) as [w1 [cs [E1 [U _]]]]; [|lia|lia|].
  { intros i Hi. destruct (El i Hi) as [v [E C]]. exists v. split; auto. unfold us'. now rewrite app_nth1. }
  rewrite Lus in E1, U.
  assert (A : (o <- r_vector_g G t (esize (rw s) e) ;; protect o) s =
    (Done (mkR t (hnext (hp (rw s))) None), mkRW (r_world (swept G s) (Z.of_nat n)) (hnext (hp (rw s)) :: pstk s) (root s)))
    by (rewrite Sz; now apply g_vector_alloc).
  assert (L : forN n 0 (put_elem lm t e (hnext (hp (swept G s)))) (r_world (swept G s) (Z.of_nat n)) = (stop o tt, w1)).
  { replace n with (length us + S (n - length us - 1))%nat at 1 by lia. eapply forN_stop; [exact E1| |].
    - unfold put_elem. rewrite Z.add_0_l. rewrite !bind_assoc. unfold bind at 1.
      assert (Ew : elem lm e (Z.of_nat (length us)) w1 = (o, w1)).
      { apply pair_eta; [|apply elem_pure]. rewrite (elem_same lm (swept G s)); [now rewrite Eo|].
        intros x Ix. eapply (upd_cells_b (swept G s) _ w1 cs e); eauto. now apply swept_below. }
      rewrite Ew. destruct o as [v| |]; try reflexivity. now elim (No v).
    - intros u. destruct o as [v| |]; try discriminate. now elim (No v). }
  exists w1, (hnext (hp (rw s))). unfold cpp2R_g. rewrite gget. cbv zeta. rewrite Fl.
  rewrite (gdone _ _ _ _ _ A). cbn [r_mem]. unfold bind at 1.
  rewrite (inw_eq _ _ (stop o tt) w1); [destruct o as [v| |]; try reflexivity; now elim (No v)|].
  cbn [rw]. rewrite Sz. unfold for_int. rewrite Nat2Z.id. exact L.
Qed.

(** Without a collection the conversion is the one of OutModel. *)
Definition idle : collector := fun _ _ => false.
Lemma collect_idle s : collect idle s = (Done tt, s).
Proof.
  unfold collect, idle. f_equal. destruct s as [[[n b l] ob] st rt]. cbn [rw hp pstk root set_hp hnext hlim hblk]. unfold set_hp. cbn.
  do 3 f_equal. extensionality a. cbn. now destruct (b a) as [|[]|].
Qed.

Definition sim {A} (g : M rworld A) (m : M world A) : Prop :=
  forall s, fst (g s) = fst (m (rw s)) /\ rw (snd (g s)) = snd (m (rw s)).
Lemma sim_bind {A B} (g : M rworld A) (m : M world A) (f : A -> M rworld B) (f' : A -> M world B) :
  sim g m -> (forall a, sim (f a) (f' a)) -> sim (bind g f) (bind m f').
Proof.
  intros H K s. destruct (H s) as [H1 H2]. unfold bind. destruct (g s) as [x s1], (m (rw s)) as [x' w1]. cbn in H1, H2. subst.
  destruct x'; try (split; reflexivity). apply K.
Qed.
Lemma sim_inw {A} (m : M world A) : sim (inw m) m. Proof. intros s. now split. Qed.
Lemma sim_lift {A} (o : outcome A) : sim (lift o) (lift o). Proof. intros s. now split. Qed.
Lemma sim_ass b m : sim (ass b m) (ass b m). Proof. intros s. now destruct b. Qed.
Lemma sim_ret {A} (a : A) : sim (ret a) (ret a). Proof. intros s. now split. Qed.
Lemma sim_skip {A} (g : M rworld A) m : sim g m -> sim (collect idle ;; g) m.
Proof. intros H s. rewrite (gdone _ _ _ _ _ (collect_idle s)). apply H. Qed.

Definition pushes (g : M rworld robj) : Prop := forall s o s1, g s = (Done o, s1) -> pstk s1 <> [].
Lemma pushes_protect (g : M rworld robj) : pushes (o <- g ;; protect o).
Proof. intros s o s1. unfold bind. destruct (g s) as [[a| |] s2]; try discriminate. intros [= <- <-]. discriminate. Qed.
Lemma pushes_bind {A} (m : M rworld A) g : (forall a, pushes (g a)) -> pushes (bind m g).
Proof. intros H s o s1. unfold bind. destruct (m s) as [[a| |] s2]; try discriminate. apply H. Qed.

Lemma sim_vector t n : sim (o <- r_vector_g idle t n ;; protect o) (r_vector t n).
Proof.
  intros s. unfold r_vector_g. unfold bind at 1 3. rewrite (gdone _ _ _ _ _ (collect_idle s)). unfold inw.
  destruct (r_vector t n (rw s)) as [[]]; split; reflexivity.
Qed.
Lemma sim_matrix t nr nc : sim (o <- r_matrix_g idle t nr nc ;; protect o) (r_matrix t nr nc).
Proof.
  intros s. unfold r_matrix_g. rewrite gassoc. unfold r_matrix at 2 4.
  destruct ((0 <=? to_int nr) && (0 <=? to_int nc)) eqn:E1; [rewrite gass_true, bind_ass_true|split; reflexivity].
  rewrite gassoc. destruct (to_int nr * to_int nc <=? int_max) eqn:E2; [rewrite gass_true, bind_ass_true|split; reflexivity].
  unfold bind at 1 4. rewrite (gdone _ _ _ _ _ (collect_idle s)). unfold inw, r_matrix. rewrite E1, bind_ass_true, E2, bind_ass_true.
  destruct ((a <- r_new (to_int nr * to_int nc);; ret {| r_ty := t; r_mem := a; r_dim := Some (to_int nr, to_int nc) |}) (rw s)) as [[]]; split; reflexivity.
Qed.

Lemma sim_end {B} (g : M rworld robj) m (f : robj -> M rworld B) f' s : sim g m -> pushes g ->
  (forall o s1, pstk s1 <> [] -> fst (f o s1) = fst (f' o (rw s1)) /\ rw (snd (f o s1)) = snd (f' o (rw s1))) ->
  fst (bind g f s) = fst (bind m f' (rw s)) /\ rw (snd (bind g f s)) = snd (bind m f' (rw s)).
Proof.
  intros H P K. destruct (H s) as [H1 H2]. specialize (P s). unfold bind. destruct (g s) as [x s1], (m (rw s)) as [x' w1]. cbn in H1, H2. subst.
  destruct x' as [o| |]; try (split; reflexivity). apply K. exact (P o s1 eq_refl).
Qed.
Lemma sim_tail (m : M world unit) (o : robj) s : pstk s <> [] ->
  fst ((inw m ;; unprotect 1 ;; ret o) s) = fst ((m ;; ret o) (rw s)) /\
  rw (snd ((inw m ;; unprotect 1 ;; ret o) s)) = snd ((m ;; ret o) (rw s)).
Proof.
  intros N. destruct s as [w1 [|b st] rt]; [now elim N|]. unfold bind, inw. cbn [rw].
  destruct (m w1) as [[[]| |] w2]; split; reflexivity.
Qed.

Lemma cpp2R_g_idle lm t e s : fst (cpp2R_g idle lm t e s) = fst (cpp2R lm t e (rw s)) /\
  rw (snd (cpp2R_g idle lm t e s)) = snd (cpp2R lm t e (rw s)).
Proof.
  unfold cpp2R_g, cpp2R. rewrite gget, bind_get. cbv zeta. apply sim_end.
  - destruct (eim (rw s) e); [|apply sim_vector].
    repeat (apply sim_bind; [apply sim_lift || apply sim_ass|intros]). apply sim_matrix.
  - destruct (eim (rw s) e); [|apply pushes_protect].
    repeat (apply pushes_bind; intros). intros s1 o s2 [= <- <-]. discriminate.
  - intros o s1 N. now apply sim_tail.
Qed.

Lemma got_same s s' o t us dim e x : world_shape (rw s) -> r_got_g s s' o t us dim -> secured s e -> In x (vars e) -> same_obj (rw s) (rw s') (OD x).
Proof.
  intros W [_ [_ [_ [G4 [[G5 [_ G6]] _]]]]] Se Ix. split; [now rewrite G5|]. intros a P.
  destruct (ptr_live _ _ _ W P) as [cs [B _]].
  destruct (G6 a) as [E|[[c B'] [N _]]]; [congruence|exact E|]. exfalso. apply N. eapply Se; eauto.
Qed.
Lemma got_secured s s' o t us dim e : world_shape (rw s) -> r_got_g s s' o t us dim -> secured s e -> secured s' e.
Proof.
  intros W Gt Se x a cs Ix P B. pose proof (got_same _ _ _ _ _ _ _ _ W Gt Se Ix) as [E1 E2].
  destruct Gt as [_ [_ [_ [_ [_ [G6 [G7 _]]]]]]]. rewrite E1 in P. rewrite (E2 a P) in B. unfold holds_on. rewrite G6, G7. eapply Se; eauto.
Qed.
Lemma eim_ob w w' e : ob w' = ob w -> eim w' e = eim w e.
Proof.
  intros H. induction e; cbn [eim]; rewrite ?H; auto. rewrite IHe1, IHe2. reflexivity.
Qed.
