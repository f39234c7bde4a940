(** Proofs about the lifetime of expressions. *)
From Coq Require Import ZArith List String Bool Lia.
From Verif Require Import Base Num StoreModel VecModel LifeModel SpecLife VecProofs.
Import ListNotations.
Open Scope Z_scope.
Local Notation length := List.length (only parsing).

Lemma object_lt A k n : object A k = Some n -> (k < length A)%nat.
Proof.
  induction A as [|a A IH]; simpl; [discriminate|]. destruct (Nat.eqb k (length A)) eqn:E.
  - apply Nat.eqb_eq in E. lia.
  - intros H. apply IH in H. lia.
Qed.
Lemma object_tail a A k : (k < length A)%nat -> object (a :: A) k = object A k.
Proof. intros H. simpl. replace (Nat.eqb k (length A)) with false by (symmetry; apply Nat.eqb_neq; lia). reflexivity. Qed.
Lemma object_head a A : object (a :: A) (length A) = a.
Proof. simpl. now rewrite Nat.eqb_refl. Qed.
Lemma object_more a A k n : object A k = Some n -> object (a :: A) k = Some n.
Proof. intros H. rewrite object_tail; [exact H|now apply object_lt in H]. Qed.

Lemma grounded_tail a A : grounded (a :: A) -> grounded A.
Proof. intros G k n H. apply G. now apply object_more. Qed.
Lemma grounded_none A : grounded A -> grounded (None :: A).
Proof.
  intros G k n H. simpl in H. destruct (Nat.eqb k (length A)); [discriminate|]. now apply G.
Qed.
Lemma grounded_some A n : grounded A -> node_before (length A) n -> grounded (Some n :: A).
Proof.
  intros G B k m H. simpl in H. destruct (Nat.eqb k (length A)) eqn:E.
  - injection H as <-. apply Nat.eqb_eq in E. now subst k.
  - now apply G.
Qed.
Lemma before_le j k r : (j <= k)%nat -> before j r -> before k r.
Proof. intros L. destruct r; simpl; lia. Qed.

Lemma shows_more a A r e : shows A r e -> shows (a :: A) r e.
Proof. induction 1; econstructor; eauto using object_more. Qed.
Lemma shows_dead n A r e : shows A r e -> shows (repeat None n ++ A) r e.
Proof. intros H. induction n; simpl; auto using shows_more. Qed.
Lemma shows_before A r e : shows A r e -> before (length A) r.
Proof. intros H. inversion H; subst; simpl; try exact Logic.I; eapply object_lt; eauto. Qed.

Lemma shows_less a A r e : grounded (a :: A) -> shows (a :: A) r e -> before (length A) r -> shows A r e.
Proof.
  intros G. induction 1 as [x|k v H|k t l m H|k r ind m e H S IH|k op l r e f H S1 I1 S2 I2|k op r e H S IH]; intros B; simpl in B;
    [constructor|rewrite object_tail in H by exact B..].
  - now constructor.
  - now constructor.
  - pose proof (G k _ ltac:(rewrite object_tail by exact B; exact H)) as N. simpl in N.
    eapply sh_sub; [exact H|]. apply IH. eapply before_le; [|exact N]. lia.
  - pose proof (G k _ ltac:(rewrite object_tail by exact B; exact H)) as [N1 N2].
    eapply sh_bin; [exact H|apply I1|apply I2]; (eapply before_le; [|eassumption]; lia).
  - pose proof (G k _ ltac:(rewrite object_tail by exact B; exact H)) as N. simpl in N.
    eapply sh_un; [exact H|]. apply IH. eapply before_le; [|exact N]. lia.
Qed.

Lemma answers_tail lm a A r e : before (length A) r -> same_answers lm A r e -> same_answers lm (a :: A) r e.
Proof.
  intros B S w. destruct (S w) as [S1 [S2 [S3 S4]]]. destruct r as [x|k|k].
  - split; [|split; [|split]].
    + destruct A; exact S1. + destruct A; exact S2. + intros pick. specialize (S3 pick). destruct A; exact S3.
    + intros i. specialize (S4 i). destruct A; exact S4.
  - simpl in B. assert (N : Nat.eqb k (length A) = false) by (apply Nat.eqb_neq; lia).
    cbn [rsize rim rdim relem]. rewrite N. auto.
  - simpl in B. assert (N : Nat.eqb k (length A) = false) by (apply Nat.eqb_neq; lia).
    cbn [relem]. rewrite N. split; [|split; [|split]].
    + destruct A; exact S1. + destruct A; exact S2. + intros pick. specialize (S3 pick). destruct A; exact S3. + exact S4.
Qed.

Lemma rsca_sca A r e : shows A r e -> is_rsca r = is_sca e.
Proof. intros H. inversion H; reflexivity. Qed.

Lemma rstored_object A k : rstored A (RObj k) = match object A k with Some (NBuf _ _ _) => true | _ => false end.
Proof. induction A as [|a A IH]; [reflexivity|]. cbn [rstored object]. now destruct (Nat.eqb k (length A)). Qed.
Lemma rstored_stored A r e : shows A r e -> rstored A r = stored e.
Proof.
  intros H. inversion H; subst; rewrite ?rstored_object; try (now destruct A);
    match goal with K : object A _ = Some _ |- _ => rewrite K end; reflexivity.
Qed.

Lemma bind_lift_done {B} (v : Z) (f : Z -> M world B) w : bind (lift (Done v)) f w = f v w.
Proof. reflexivity. Qed.

(** An operand of an operation, read through its reference. *)
Lemma operand lm A r e i w : same_answers lm A r e -> is_rsca r = is_sca e ->
  (if is_rsca r then relem lm A r 0 else n <- lift (rsize A w r) ;; k <- lift (modz i n) ;; relem lm A r k) w =
  (if is_sca e then elem lm e 0 else k <- lift (modz i (esize w e)) ;; elem lm e k) w.
Proof.
  intros S E. rewrite E. destruct (S w) as [S1 [_ [_ S4]]]. destruct (is_sca e); [apply S4|].
  rewrite S1, bind_lift_done. unfold bind, lift. destruct (modz i (esize w e)); auto.
Qed.

Lemma bind_ext1 {B C} (m m' : M world B) (f : B -> M world C) w : m w = m' w -> bind m f w = bind m' f w.
Proof. unfold bind. now intros ->. Qed.
Lemma bind_congr {B C} (m m' : M world B) (f g : B -> M world C) w : m w = m' w -> snd (m' w) = w -> (forall a, f a w = g a w) -> bind m f w = bind m' g w.
Proof. unfold bind. intros -> E H. destruct (m' w) as [[a|x|u] w']; cbn [snd] in E; subst w'; auto. Qed.
Lemma get_bind {B} (f : world -> M world B) w : bind get f w = f w w.
Proof. reflexivity. Qed.

Lemma operand_state lm e i w : snd ((if is_sca e then elem lm e 0 else k <- lift (modz i (esize w e)) ;; elem lm e k) w) = w.
Proof. destruct (is_sca e); [apply elem_pure|]. unfold bind, lift. destruct (modz i (esize w e)); [apply elem_pure|reflexivity|reflexivity]. Qed.

(** Alive all the way down: the references answer as the tree does. *)
Lemma shows_answers lm A : grounded A -> forall r e, shows A r e -> same_answers lm A r e.
Proof.
  induction A as [|a A IH]; intros G r e S.
  - inversion S; subst; try discriminate. intros w. repeat split; reflexivity.
  - pose proof (grounded_tail _ _ G) as GT.
    assert (LT : forall r e, shows (a :: A) r e -> before (length A) r -> same_answers lm A r e /\ is_rsca r = is_sca e).
    { intros r' e' S' B. split; [|eapply rsca_sca; eauto]. apply IH; [exact GT|]. eapply shows_less; eauto. }
    assert (ST : forall r e, shows (a :: A) r e -> before (length A) r -> rstored A r = stored e).
    { intros r' e' S' B. apply rstored_stored. eapply shows_less; eauto. }
    assert (D : before (length A) r \/ ~ before (length A) r) by (destruct r; simpl; lia).
    destruct D as [D|D]; [apply answers_tail; [exact D|]; now apply LT|].
    assert (Hk : forall k n, object (a :: A) k = Some n -> ~ (k < length A)%nat -> k = length A /\ a = Some n).
    { intros k n H N. pose proof (object_lt _ _ _ H) as L. simpl in L. assert (k = length A) by lia. subst k. rewrite object_head in H. auto. }
    inversion S as [x|k v H|k t l m H|k r' ind m e' H S'|k op l r' e' f H S1 S2|k op r' e' H S']; subst r e; simpl in D; try tauto;
      destruct (Hk k _ H D) as [-> ->]; intros w; cbn [rsize rim rdim relem]; rewrite Nat.eqb_refl.
    + repeat split.
    + repeat split.
    + pose proof (G _ _ (object_head _ A)) as B. simpl in B. destruct (LT _ _ S' B) as [A1 _].
      repeat split. intros i. cbn [elem]. rewrite !get_bind. destruct (A1 w) as [Q1 [_ [_ Q4]]]. rewrite Q1, bind_lift_done.
      unfold bind, lift, ret, ras_ret, as_ret. rewrite (ST _ _ S' B).
      destruct (modz i (esize w e')); auto. destruct (ind_at ind a) as [j| |]; auto. now rewrite Q4.
    + pose proof (G _ _ (object_head _ A)) as [B1 B2]. destruct (LT _ _ S1 B1) as [A1 E1]. destruct (LT _ _ S2 B2) as [A2 E2].
      destruct (A1 w) as [Q1 [Q2 [Q3 _]]]. destruct (A2 w) as [R1 [R2 [R3 _]]]. cbn [esize eim elem].
      split; [|split; [|split]].
      * rewrite E1, E2, Q1, R1. cbn [obind]. destruct (is_sca e'), (is_sca f); reflexivity.
      * rewrite E1, E2, Q2, R2. cbn [obind]. destruct (is_sca e'), (is_sca f), (eim w e'); reflexivity.
      * intros pick. cbn [edim]. rewrite E1, E2, Q2, R2, Q3, R3. reflexivity.
      * intros i. rewrite !get_bind. apply bind_congr; [exact (operand lm A l e' i w A1 E1)|apply operand_state|].
        intros v. apply bind_ext1. exact (operand lm A r' f i w A2 E2).
    + pose proof (G _ _ (object_head _ A)) as B. simpl in B. destruct (LT _ _ S' B) as [A1 E1].
      destruct (A1 w) as [Q1 [Q2 [Q3 _]]]. split; [exact Q1|]. split; [reflexivity|]. split; [exact Q3|].
      intros i. cbn [elem]. rewrite !get_bind. apply bind_ext1. exact (operand lm A r' e' i w A1 E1).
Qed.

(* --------------------------------------------------------------- building *)

(** The names in scope, and what they stand for. *)
Definition known (A : objects) (E : list ref) (D : list expr) : Prop := Forall2 (shows A) E D.

Lemma known_more a A E D : known A E D -> known (a :: A) E D.
Proof. unfold known. induction 1; constructor; auto using shows_more. Qed.
Lemma known_dead n A E D : known A E D -> known (repeat None n ++ A) E D.
Proof. intros H. induction n; simpl; auto using known_more. Qed.
Lemma known_prefix P A E D : known A E D -> known (P ++ A) E D.
Proof. intros H. induction P; simpl; auto using known_more. Qed.
Lemma known_nth A E D k : known A E D -> (k < length D)%nat -> shows A (nth k E (RVec 0)) (nth k D (EVar 0)).
Proof.
  intros H. revert k. induction H as [|r e E D S H IH]; intros k L; simpl in L; [lia|]. destruct k; [exact S|]. apply IH. lia.
Qed.
Lemma known_app A E D r e : known A E D -> shows A r e -> known A (E ++ [r]) (D ++ [e]).
Proof. unfold known. induction 1; simpl; constructor; auto. Qed.
Lemma grounded_dead n A : grounded A -> grounded (repeat None n ++ A).
Proof. intros G. induction n; simpl; auto using grounded_none. Qed.
Lemma shows_prefix P A r e : shows A r e -> shows (P ++ A) r e.
Proof. intros H. induction P; simpl; auto using shows_more. Qed.

Lemma build_shows E D s : forall A, grounded A -> known A E D -> names_below (length D) s ->
  exists P, snd (build E s A) = P ++ A /\ grounded (P ++ A) /\ shows (P ++ A) (fst (build E s A)) (expand D s).
Proof.
  induction s as [x|k|v|t l m|s IH ind m|op a Ia b Ib|op a Ia]; intros A G K N; simpl in N; cbn [build expand].
  - exists []. split; [reflexivity|]. split; [exact G|constructor].
  - exists []. split; [reflexivity|]. split; [exact G|]. now apply known_nth.
  - exists [Some (NSca v)]. split; [reflexivity|]. split; [apply grounded_some; simpl; auto|]. constructor. apply object_head.
  - exists [Some (NBuf t l m)]. split; [reflexivity|]. split; [apply grounded_some; simpl; auto|]. constructor. apply object_head.
  - destruct (IH A G K N) as [P [HP [G1 S1]]]. destruct (build E s A) as [r A1]. cbn [fst snd] in *. subst A1.
    exists (Some (NSub r ind m) :: P). split; [reflexivity|]. cbn [app]. split; [apply grounded_some; [exact G1|exact (shows_before _ _ _ S1)]|].
    eapply sh_sub; [apply object_head|]. now apply shows_more.
  - destruct N as [N1 N2]. destruct (Ia A G K N1) as [P [HP [G1 S1]]]. destruct (build E a A) as [ra A1]. cbn [fst snd] in *. subst A1.
    destruct (Ib (P ++ A) G1 (known_prefix _ _ _ _ K) N2) as [Q [HQ [G2 S2]]]. destruct (build E b (P ++ A)) as [rb A2]. cbn [fst snd] in *. subst A2.
    exists (Some (NBin op ra rb) :: Q ++ P). split; [simpl; now rewrite app_assoc|]. cbn [app]. rewrite <- app_assoc.
    pose proof (shows_prefix Q _ _ _ S1) as S1'.
    split; [apply grounded_some; [exact G2|split; [exact (shows_before _ _ _ S1')|exact (shows_before _ _ _ S2)]]|].
    eapply sh_bin; [apply object_head|now apply shows_more|now apply shows_more].
  - destruct (Ia A G K N) as [P [HP [G1 S1]]]. destruct (build E a A) as [r A1]. cbn [fst snd] in *. subst A1.
    exists (Some (NUn op r) :: P). split; [reflexivity|]. cbn [app]. split; [apply grounded_some; [exact G1|exact (shows_before _ _ _ S1)]|].
    eapply sh_un; [apply object_head|]. now apply shows_more.
Qed.

Lemma kill_same A : kill (length A) A = A.
Proof. destruct A as [|a A]; [reflexivity|]. cbn [kill length]. replace (Nat.leb (S (length A)) (length A)) with false by (symmetry; apply Nat.leb_gt; lia). reflexivity. Qed.
Lemma kill_prefix P A : kill (length A) (P ++ A) = repeat None (length P) ++ A.
Proof.
  induction P as [|p P IH]; [apply kill_same|]. cbn [app kill length repeat]. rewrite app_length.
  replace (Nat.leb (length A) (length P + length A)) with true by (symmetry; apply Nat.leb_le; lia). now rewrite IH.
Qed.

Lemma named_build E s A : has_name s = true -> snd (build E s A) = A.
Proof. destruct s; simpl; try discriminate; reflexivity. Qed.
Lemma storable_build E s A : storable s = true -> exists n, snd (build E s A) = Some n :: A.
Proof.
  destruct s as [x|k|v|t l m|s ind m|op a b|op a]; cbn [storable]; try discriminate; intros H; cbn [build snd]; [eexists; reflexivity|eexists; reflexivity|..].
  - pose proof (named_build E s A H) as Q. destruct (build E s A) as [r A1]. cbn [snd] in *. subst. eauto.
  - apply andb_true_iff in H. destruct H as [H1 H2]. pose proof (named_build E a A H1) as Q. destruct (build E a A) as [r A1]. cbn [snd] in *. subst.
    pose proof (named_build E b A H2) as Q. destruct (build E b A) as [r2 A1]. cbn [snd] in *. subst. eauto.
  - pose proof (named_build E a A H) as Q. destruct (build E a A) as [r A1]. cbn [snd] in *. subst. eauto.
Qed.

Lemma auto_shows E D s A : grounded A -> known A E D -> names_below (length D) s -> storable s = true ->
  exists n, snd (auto_decl E s A) = Some n :: A /\ grounded (Some n :: A) /\ shows (Some n :: A) (fst (auto_decl E s A)) (expand D s).
Proof.
  intros G K N S. destruct (storable_build E s A S) as [n Q]. destruct (build_shows E D s A G K N) as [P [HP [G1 S1]]].
  unfold auto_decl. destruct (build E s A) as [r A1]. cbn [fst snd] in *. subst A1. rewrite <- HP in *. exists n.
  cbn [fst snd]. rewrite kill_same. auto.
Qed.

(* ------------------------------------------------------------- assignment *)

Lemma forN_ext {B : world -> Prop} n : forall i (f g : Z -> M world unit), (forall j w, f j w = g j w) -> forall w, forN n i f w = forN n i g w.
Proof. clear B. induction n; intros i f g H w; [reflexivity|]. cbn [forN]. unfold bind. rewrite H. destruct (g i w) as [[a|x|u] w']; auto. Qed.
Lemma for_ext n (f g : Z -> M world unit) w : (forall j w, f j w = g j w) -> for_ n f w = for_ n g w.
Proof. intros H. unfold for_. apply (@forN_ext (fun _ => True)). exact H. Qed.
Lemma fill_temp_same lm A r e o t n w : same_answers lm A r e -> fill_temp_ref lm A o t r n w = fill_temp lm o t e n w.
Proof. intros S. unfold fill_temp_ref, fill_temp. apply for_ext. intros j v. apply bind_ext1. apply S. Qed.
Lemma take_shape_same lm A r e o w : same_answers lm A r e -> take_shape_ref A o r w = take_shape o e w.
Proof.
  intros S. destruct (S w) as [_ [S2 [S3 _]]]. unfold take_shape_ref, take_shape. rewrite !get_bind. rewrite S2. unfold bind at 1. cbn [lift].
  destruct (eim w e); [|reflexivity]. now rewrite !S3.
Qed.

Lemma bind_tail {B C} (m : M world B) (f g : B -> M world C) w : (forall a w, f a w = g a w) -> bind m f w = bind m g w.
Proof. intros H. unfold bind. destruct (m w) as [[a|x|u] w']; auto. Qed.

Lemma assign_same lm A r e x w : same_answers lm A r e -> assign_ref lm A x r w = assign lm x e w.
Proof.
  intros S. unfold assign_ref, assign. apply bind_tail. intros s w0. destruct (kd s).
  - unfold assign_buffer_ref, assign_buffer. rewrite !get_bind. destruct (S w0) as [S1 _]. rewrite S1, bind_lift_done.
    apply bind_tail. intros _ w1. rewrite (bind_ext1 _ _ _ w1 (fill_temp_same lm A r e _ _ _ w1 S)).
    apply bind_tail. intros _ w2. apply bind_tail. intros _ w3. eapply take_shape_same; eauto.
  - unfold assign_borrow_ref, assign_borrow. rewrite !get_bind. destruct (S w0) as [S1 _]. rewrite S1, bind_lift_done.
    apply bind_tail. intros _ w1. apply bind_tail. intros _ w1'. rewrite (bind_ext1 _ _ _ w1' (fill_temp_same lm A r e _ _ _ w1' S)).
    apply bind_tail. intros _ w2. apply bind_tail. intros _ w3. apply bind_tail. intros _ w4. rewrite !get_bind. destruct (S w4) as [S4 _]. rewrite S4, bind_lift_done.
    apply bind_tail. intros _ w5. eapply take_shape_same; eauto.
  - unfold assign_sexp_ref, assign_sexp. rewrite !get_bind. destruct (S w0) as [S1 _]. rewrite S1, bind_lift_done.
    apply bind_tail. intros _ w1. rewrite (bind_ext1 _ _ _ w1 (fill_temp_same lm A r e _ _ _ w1 S)).
    apply bind_tail. intros _ w2. rewrite !get_bind. apply bind_tail. intros _ w3. apply bind_tail. intros _ w4. eapply take_shape_same; eauto.
Qed.

(* --------------------------------------------------------------- programs *)

(** The result of the program without objects, with the objects A. *)
Definition with_objects (A : objects) (p : outcome unit * world) : outcome objects * world :=
  match p with (Done _, w) => (Done A, w) | (Thrown e, w) => (Thrown e, w) | (Undef u, w) => (Undef u, w) end.

Lemma yrun_mean lm c : forall E D A, grounded A -> known A E D -> lasting (length D) c ->
  exists n, forall w, yrun lm c E A w = with_objects (repeat None n ++ A) (ymean lm c D w).
Proof.
  induction c as [x s|s b IH|a Ia b Ib|]; intros E D A G K L; cbn [lasting] in L; cbn [yrun ymean].
  - destruct (build_shows E D s A G K L) as [P [HP [G1 S1]]]. destruct (build E s A) as [r A1]. cbn [fst snd] in *. subst A1.
    exists (length P). intros w. unfold bind. rewrite (assign_same lm _ r (expand D s) x w (shows_answers lm _ G1 _ _ S1)), kill_prefix.
    destruct (assign lm x (expand D s) w) as [[a|e|u] w']; reflexivity.
  - destruct L as [N [S L]]. destruct (auto_shows E D s A G K N S) as [n [Q [G1 S1]]]. destruct (auto_decl E s A) as [r A1]. cbn [fst snd] in *. subst A1.
    destruct (IH (E ++ [r]) (D ++ [expand D s]) (Some n :: A) G1) as [m HM].
    { apply known_app; [now apply known_more|exact S1]. }
    { rewrite app_length. simpl. now rewrite Nat.add_1_r. }
    exists (m + 1)%nat. intros w. unfold bind. rewrite HM. destruct (ymean lm b (D ++ [expand D s]) w) as [[a|e|u] w']; cbn [with_objects]; try reflexivity.
    unfold ret. replace (repeat None m ++ Some n :: A) with ((repeat None m ++ [Some n]) ++ A) by now rewrite <- app_assoc.
    rewrite kill_prefix, app_length, repeat_length. reflexivity.
  - destruct L as [L1 L2]. destruct (Ia E D A G K L1) as [n Hn].
    destruct (Ib E D (repeat None n ++ A) (grounded_dead n A G) (known_dead n A E D K) L2) as [m Hm].
    exists (m + n)%nat. intros w. unfold bind. rewrite Hn. destruct (ymean lm a D w) as [[x|e|u] w']; cbn [with_objects]; try reflexivity.
    rewrite Hm, repeat_app, <- app_assoc. reflexivity.
  - exists 0%nat. reflexivity.
Qed.

(* --------------------------------------------------------------- dangling *)

Lemma object_dead_elem lm A k : object A k = None -> forall i w, relem lm A (RObj k) i w = (Undef UB_freed, w) /\ relem lm A (RSca k) i w = (Undef UB_freed, w).
Proof.
  induction A as [|a A IH]; intros H i w; [split; reflexivity|]. simpl in H. cbn [relem]. destruct (Nat.eqb k (length A)); [|now apply IH].
  subst a. split; reflexivity.
Qed.
Lemma object_dead_size A k w : object A k = None -> rsize A w (RObj k) = Undef UB_freed.
Proof.
  induction A as [|a A IH]; intros H; [reflexivity|]. simpl in H. cbn [rsize]. destruct (Nat.eqb k (length A)); [|now apply IH]. now subst a.
Qed.

(** A reference to something that is over. *)
Definition gone (A : objects) (r : ref) : Prop := match r with RVec _ => False | RObj k | RSca k => object A k = None end.
Lemma gone_operand lm A r i w : gone A r ->
  (if is_rsca r then relem lm A r 0 else n <- lift (rsize A w r) ;; k <- lift (modz i n) ;; relem lm A r k) w = (Undef UB_freed, w).
Proof.
  destruct r as [x|k|k]; simpl; [tauto| |]; intros H.
  - rewrite (object_dead_size A k w H). reflexivity.
  - now apply object_dead_elem.
Qed.

Lemma object_killed n A k : (n <= k)%nat -> object (kill n A) k = None.
Proof.
  intros L. induction A as [|a A IH]; [reflexivity|]. cbn [kill]. destruct (Nat.leb n (length A)) eqn:Q.
  - simpl. assert (QL : length (kill n A) = length A).
    { clear. induction A as [|a A IH]; [reflexivity|]. simpl. destruct (Nat.leb n (length A)); simpl; congruence. }
    rewrite QL. destruct (Nat.eqb k (length A)); [reflexivity|exact IH].
  - apply Nat.leb_gt in Q. destruct (object (a :: A) k) eqn:O; [|reflexivity]. apply object_lt in O. simpl in O. lia.
Qed.
Lemma kill_length n A : length (kill n A) = length A.
Proof. induction A as [|a A IH]; [reflexivity|]. simpl. destruct (Nat.leb n (length A)); simpl; congruence. Qed.

Lemma build_len E s : forall A, (length A <= length (snd (build E s A)))%nat.
Proof.
  induction s as [x|k|v|t l m|s IH ind m|op a Ia b Ib|op a Ia]; intros A; cbn [build]; simpl; try lia.
  - specialize (IH A). destruct (build E s A). simpl in *. lia.
  - specialize (Ia A). destruct (build E a A) as [ra A1]. specialize (Ib A1). destruct (build E b A1). simpl in *. lia.
  - specialize (Ia A). destruct (build E a A). simpl in *. lia.
Qed.
(** The object of an operand without a name is a temporary. *)
Lemma build_temp E s A : has_name s = false -> exists k, (length A <= k < length (snd (build E s A)))%nat /\
  (fst (build E s A) = RObj k \/ fst (build E s A) = RSca k).
Proof.
  destruct s as [x|k|v|t l m|s ind m|op a b|op a]; cbn [has_name]; try discriminate; intros _; cbn [build].
  - exists (length A). simpl. split; [lia|auto].
  - exists (length A). simpl. split; [lia|auto].
  - pose proof (build_len E s A). destruct (build E s A) as [r A1]. exists (length A1). simpl in *. split; [lia|auto].
  - pose proof (build_len E a A). destruct (build E a A) as [r A1]. pose proof (build_len E b A1). destruct (build E b A1) as [r2 A2]. exists (length A2). simpl in *. split; [lia|auto].
  - pose proof (build_len E a A). destruct (build E a A) as [r A1]. exists (length A1). simpl in *. split; [lia|auto].
Qed.
Lemma build_gone E s A n B : has_name s = false -> (n <= length A)%nat -> gone (kill n B) (fst (build E s A)).
Proof.
  intros H L. destruct (build_temp E s A H) as [k [K [-> | ->]]]; simpl; apply object_killed; lia.
Qed.

(** A variable declared with an expression that is not storable has no elements. *)
Lemma auto_dangling lm E s A i w : has_name s = false -> storable s = false ->
  exists u w', relem lm (snd (auto_decl E s A)) (fst (auto_decl E s A)) i w = (u, w') /\ forall v, u <> Done v.
Proof.
  intros H S. unfold auto_decl.
  destruct s as [x|k|v|t l m|s ind m|op a b|op a]; cbn [storable] in S; try discriminate; cbn [build].
  - pose proof (build_gone E s A (length A) (snd (build E s A)) S (le_n _)) as Q. destruct (build E s A) as [r A1]. cbn [fst snd] in *.
    cbn [relem]. rewrite kill_length, Nat.eqb_refl. rewrite get_bind. unfold bind at 1.
    destruct r as [x|k|k]; [destruct Q| |]; cbn [gone] in Q.
    + rewrite (object_dead_size _ _ w Q). cbn [lift]. eexists _, _. split; [reflexivity|discriminate].
    + assert (T : rsize (kill (length A) A1) w (RSca k) = Done 1) by (destruct (kill (length A) A1); reflexivity). rewrite T. cbn [lift]. unfold bind, lift.
      destruct (modz i 1) as [j|x|u]; try (eexists _, _; split; [reflexivity|discriminate]).
      destruct (ind_at ind j) as [j'|x|u]; try (eexists _, _; split; [reflexivity|discriminate]).
      rewrite (proj2 (object_dead_elem lm _ _ Q j' w)). eexists _, _; split; [reflexivity|discriminate].
  - pose proof (build_len E a A) as LA.
    assert (Q : gone (kill (length A) (snd (build E b (snd (build E a A))))) (fst (build E a A)) \/
                gone (kill (length A) (snd (build E b (snd (build E a A))))) (fst (build E b (snd (build E a A))))).
    { apply andb_false_iff in S. destruct S as [S|S]; [left|right]; apply build_gone; auto. }
    destruct (build E a A) as [ra A1]. cbn [fst snd] in *. destruct (build E b A1) as [rb A2]. cbn [fst snd] in *.
    cbn [relem]. rewrite kill_length, Nat.eqb_refl, get_bind. unfold bind at 1.
    destruct ((if is_rsca ra then relem lm (kill (length A) A2) ra 0
               else n <- lift (rsize (kill (length A) A2) w ra);; k <- lift (modz i n);; relem lm (kill (length A) A2) ra k) w) as [[x|x|u] w1] eqn:X;
      try (eexists _, _; split; [reflexivity|discriminate]).
    destruct Q as [Q|Q]; [pose proof (gone_operand lm _ ra i w Q) as Y; rewrite X in Y; discriminate|].
    unfold bind at 1.
    assert (Y : (if is_rsca rb then relem lm (kill (length A) A2) rb 0
               else n <- lift (rsize (kill (length A) A2) w rb);; k <- lift (modz i n);; relem lm (kill (length A) A2) rb k) w1 = (Undef UB_freed, w1)).
    { destruct rb as [x'|k|k]; [destruct Q| |]; cbn [gone is_rsca] in *.
      - rewrite (object_dead_size _ _ w Q). reflexivity.
      - now apply object_dead_elem. }
    rewrite Y. eexists _, _; split; [reflexivity|discriminate].
  - pose proof (build_gone E a A (length A) (snd (build E a A)) S (le_n _)) as Q. destruct (build E a A) as [r A1]. cbn [fst snd] in *.
    cbn [relem]. rewrite kill_length, Nat.eqb_refl. rewrite get_bind. unfold bind at 1. rewrite (gone_operand lm _ r i w Q).
    eexists _, _; split; [reflexivity|discriminate].
Qed.
