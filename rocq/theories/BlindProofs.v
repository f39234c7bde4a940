(** A call only depends on memory its vectors point to.  Two worlds that differ
    in blocks no vector points to ([T], with contents B1 and B2) give the same
    results, and go on to differ in these blocks only.  All memory of R is among
    [T] and [X]; no vector points to [X] either, but there the worlds agree. *)
From Coq Require Import ZArith List String Bool Lia FunctionalExtensionality.
From Verif Require Import Base Num StoreModel VecModel SubsetModel AllocModel ProgModel LangModel OutModel ForeignModel CallModel JumpModel.
Import ListNotations.
Open Scope Z_scope.
Local Notation length := List.length (only parsing).

Section Blind.
Variables (T X : nat -> Prop) (B1 B2 : nat -> block).

Definition fine (K : nat) (p : option nat) : Prop := forall a, p = Some a -> ~ T a /\ (a < K)%nat.
Definition out (p : option nat) : Prop := forall a, p = Some a -> ~ T a.
Record rel (w w' : world) : Prop := {
  rel_ob : ob w' = ob w;
  rel_next : hnext (hp w') = hnext (hp w);
  rel_lim : hlim (hp w') = hlim (hp w);
  rel_same : forall a, ~ T a -> hblk (hp w') a = hblk (hp w) a;
  rel_kept : forall a, T a -> hblk (hp w) a = B1 a /\ hblk (hp w') a = B2 a;
  rel_low : forall a, T a -> (a < hnext (hp w))%nat;
  rel_ptr : forall o, fine (hnext (hp w)) (ptr (ob w o));
  rel_R : forall a cs, hblk (hp w) a = Live OwnR cs -> T a \/ X a }.
(** [K]: the blocks below it have been given out when m starts. *)
Definition agree {A} (K : nat) (m m' : M world A) : Prop := forall w w', rel w w' -> (K <= hnext (hp w))%nat ->
  fst (m' w') = fst (m w) /\ rel (snd (m w)) (snd (m' w')) /\ (hnext (hp w) <= hnext (hp (snd (m w))))%nat.
Definition blind_at {A} (K : nat) (m : M world A) : Prop := agree K m m.
Definition blind {A} (m : M world A) : Prop := forall K, blind_at K m.

Lemma fine_out K p : fine K p -> out p. Proof. intros F a E. now apply (F a E). Qed.
Lemma fine_up K K' p : (K <= K')%nat -> fine K p -> fine K' p. Proof. intros L F a E. destruct (F a E). split; [auto|lia]. Qed.
Lemma blind_use {A} (m : M world A) w w' : blind m -> rel w w' -> fst (m w') = fst (m w) /\ rel (snd (m w)) (snd (m w')).
Proof. intros H R. destruct (H 0%nat w w' R (Nat.le_0_l _)) as [E [R1 _]]. now split. Qed.
Lemma blind_up {A} K K' (m : M world A) : (K <= K')%nat -> blind_at K m -> blind_at K' m.
Proof. intros L H w w' R LE. apply H; [auto|lia]. Qed.
Lemma here {A} (x y : outcome A) w w' : x = y -> rel w w' -> x = y /\ rel w w' /\ (hnext (hp w) <= hnext (hp w))%nat.
Proof. intros; split; [auto|split; auto]. Qed.
Ltac stay := apply here; [reflexivity|assumption].
Lemma blind_bind {A C} K (m : M world A) (f : A -> M world C) : blind_at K m -> (forall x, blind_at K (f x)) -> blind_at K (bind m f).
Proof.
  intros Hm Hf w w' R L. destruct (Hm w w' R L) as [E [R1 L1]]. unfold bind. destruct (m w) as [[x|e|u] w1], (m w') as [r2 w2]; cbn [fst snd] in *; subst r2.
  - destruct (Hf x w1 w2 R1) as [E2 [R2 L2]]; [lia|]. split; [exact E2|]. split; [exact R2|lia].
  - split; [reflexivity|split; assumption].
  - split; [reflexivity|split; assumption].
Qed.
Lemma blind_ret {A} K (x : A) : blind_at K (ret x). Proof. intros w w' R L. stay. Qed.
Lemma blind_throw {A} K e : blind_at (A := A) K (throw e). Proof. intros w w' R L. stay. Qed.
Lemma blind_undef {A} K e : blind_at (A := A) K (undef e). Proof. intros w w' R L. stay. Qed.
Lemma blind_lift {A} K (x : outcome A) : blind_at K (lift x). Proof. intros w w' R L. stay. Qed.
Lemma blind_ass K b m : blind_at K (ass b m). Proof. intros w w' R L. unfold ass. destruct b; stay. Qed.
Lemma blind_get {A} K (f : world -> M world A) :
  (forall K' v v', (K <= K')%nat -> rel v v' -> (forall o, fine K' (ptr (ob v o))) -> agree K' (f v) (f v')) -> blind_at K (bind get f).
Proof. intros H w w' R L. unfold bind, get. apply (H (hnext (hp w))); auto. apply R. Qed.
Lemma blind_st {A} K o (f : store -> M world A) : (forall K' s, (K <= K')%nat -> fine K' (ptr s) -> blind_at K' (f s)) -> blind_at K (bind (st o) f).
Proof. intros H w w' R L. unfold bind, st. rewrite (rel_ob _ _ R). apply (H (hnext (hp w))); auto. apply R. Qed.
Lemma blind_new {A} K n (f : nat -> M world A) : (forall K' p, (K <= K')%nat -> fine K' (Some p) -> blind_at K' (f p)) -> blind_at K (bind (new_ n) f).
Proof.
  intros H w w' R L. unfold bind, new_. rewrite (rel_lim _ _ R), (rel_next _ _ R). destruct (n <=? _); [|stay].
  assert (F : fine (S (hnext (hp w))) (Some (hnext (hp w)))).
  { intros a [= <-]. split; [|lia]. intros Q. pose proof (rel_low _ _ R _ Q). lia. }
  match goal with |- fst (f _ ?y) = fst (f _ ?x) /\ _ => destruct (H (S (hnext (hp w))) _ (Nat.le_trans _ _ _ L (Nat.le_succ_diag_r _)) F x y) as [E [R' L']] end; cbn [hp hnext set_hp] in *.
  - destruct R as [R1 R2 R3 R4 R5 R6 R7 R8]. constructor; cbn; auto.
    + intros a Ta. destruct (a =? _)%nat; auto.
    + intros a Ta. destruct (Nat.eqb_spec a (hnext (hp w))) as [->|_]; auto. elim (proj1 (F _ eq_refl) Ta).
    + intros a Ta. specialize (R6 a Ta). lia.
    + intros o. eapply fine_up; [|apply R7]. lia.
    + intros a cs. destruct (a =? _)%nat; [discriminate|apply R8].
  - lia.
  - split; [exact E|]. split; [exact R'|lia].
Qed.
Lemma rel_blk w w' b c : rel w w' -> ~ T b -> (forall cs, c = Live OwnR cs -> exists cs', hblk (hp w) b = Live OwnR cs') ->
  rel (set_hp w (set_blk (hp w) b c)) (set_hp w' (set_blk (hp w') b c)).
Proof.
  intros [R1 R2 R3 R4 R5 R6 R7 R8] N O. constructor; cbn; auto.
  - intros a Ta. destruct (a =? b)%nat; auto.
  - intros a Ta. destruct (Nat.eqb_spec a b) as [->|_]; auto. contradiction.
  - intros a cs. destruct (Nat.eqb_spec a b) as [->|_]; [|apply R8]. intros E. destruct (O cs E) as [cs' E']. eauto.
Qed.
Lemma blind_del K p : out p -> blind_at K (del p).
Proof.
  intros N w w' R L. unfold del. destruct p as [b|]; [|stay]. rewrite (rel_same _ _ R b (N b eq_refl)).
  destruct (hblk (hp w) b) as [|[] cs|] eqn:E; try stay. split; [reflexivity|]. split; [|cbn; lia]. apply rel_blk; auto. discriminate.
Qed.
Lemma blind_wrc K p i c : out p -> blind_at K (wrc p i c).
Proof.
  intros N w w' R L. unfold wrc. destruct p as [b|]; [|stay]. rewrite (rel_same _ _ R b (N b eq_refl)).
  destruct (hblk (hp w) b) as [|o cs|] eqn:E; try stay. destruct (_ && _); [|stay]. split; [reflexivity|]. split; [|cbn; lia].
  apply rel_blk; auto. intros cs' [= -> _]. eauto.
Qed.
Lemma blind_wr K p i c : out p -> blind_at K (wr p i c).
Proof. apply blind_wrc. Qed.
Lemma blind_copy K p q i : out p -> out q -> blind_at K (copy_cell p q i).
Proof.
  intros N N' w w' R L. unfold copy_cell. destruct p as [b|]; [|stay]. rewrite (rel_same _ _ R b (N b eq_refl)).
  destruct (hblk (hp w) b) as [|o cs|] eqn:E; try stay. destruct (_ && _); [|stay]. now apply (blind_wrc K).
Qed.
Lemma blind_rd K p i : out p -> blind_at K (rd p i).
Proof.
  intros N w w' R L. unfold rd. destruct p as [b|]; [|stay]. rewrite (rel_same _ _ R b (N b eq_refl)).
  destruct (hblk (hp w) b) as [|o cs|] eqn:E; try stay. destruct (_ && _); [|stay]. destruct (nth _ _ _); stay.
Qed.
Lemma blind_upd K o f : (forall K' s, (K <= K')%nat -> fine K' (ptr s) -> fine K' (ptr (f s))) -> blind_at K (upd o f).
Proof.
  intros F w w' R L. split; [reflexivity|]. split; [|cbn; lia]. destruct R as [R1 R2 R3 R4 R5 R6 R7 R8]. constructor; cbn; auto.
  - now rewrite R1.
  - intros o'. destruct (oid_eqb o' o); auto.
Qed.
Lemma blind_forN K n : forall i body, (forall k, blind_at K (body k)) -> blind_at K (forN n i body).
Proof. induction n as [|n IH]; intros i body Hb; cbn [forN]; [apply blind_ret|]. apply blind_bind; auto. Qed.
Lemma blind_for K n body : (forall k, blind_at K (body k)) -> blind_at K (for_ n body).
Proof. apply blind_forN. Qed.
Lemma fine_none K : fine K None. Proof. discriminate. Qed.
Hint Resolve fine_none fine_out : core.
Create HintDb blind.

Lemma r_esize v v' : rel v v' -> esize v' = esize v.
Proof. intros R. apply functional_extensionality. intros e. induction e; cbn [esize]; auto; [now rewrite (rel_ob _ _ R)|now rewrite IHe1, IHe2]. Qed.
Lemma r_eim v v' : rel v v' -> eim v' = eim v.
Proof. intros R. apply functional_extensionality. intros e. induction e; cbn [eim]; rewrite ?(rel_ob _ _ R), ?IHe, ?IHe1, ?IHe2; reflexivity. Qed.
Lemma r_edim v v' : rel v v' -> forall p, edim p v' = edim p v.
Proof.
  intros R p. apply functional_extensionality. intros e. induction e; cbn [edim]; rewrite ?(rel_ob _ _ R), ?(r_eim _ _ R); auto.
  now rewrite IHe1, IHe2.
Qed.

Ltac norm R := rewrite ?(r_esize _ _ R), ?(r_eim _ _ R), ?(r_edim _ _ R), ?(rel_ob _ _ R).
Ltac raise L := repeat match goal with
  | H : fine ?K _ |- _ => match type of L with (K <= _)%nat => apply (fine_up _ _ _ L) in H end
  | H : forall o, fine ?K (ptr (ob ?v o)) |- _ => match type of L with (K <= _)%nat => pose proof (fun o => fine_up _ _ _ L (H o)); clear H end
  | H : blind_at ?K _ |- _ => match type of L with (K <= _)%nat => apply (blind_up _ _ _ L) in H end
  end.
Ltac blinding := intros; repeat first
  [ assumption | discriminate
  | match goal with |- blind _ => intro end
  | simple apply blind_ret | simple apply blind_throw | simple apply blind_undef | simple apply blind_lift | simple apply blind_ass
  | simple apply blind_get; let K := fresh "K" in let L := fresh "L" in
      let v := fresh "v" in let v' := fresh "v'" in let R := fresh "R" in let F := fresh "F" in intros K v v' L R F; norm R; raise L;
      match goal with |- agree K ?m ?m => change (blind_at K m) end; clear L; try clear v' R
  | simple apply blind_st; let K := fresh "K" in let L := fresh "L" in intros K ? L ?; raise L; clear L
  | simple apply blind_new; let K := fresh "K" in let L := fresh "L" in intros K ? L ?; raise L; clear L
  | simple apply blind_rd
  | simple apply blind_wr | simple apply blind_wrc | simple apply blind_del | simple apply blind_copy
  | simple apply blind_upd; let K := fresh "K" in let L := fresh "L" in
      intros K ? L ?; raise L; clear L; cbn [ptr kd with_ptr with_sz with_cap with_alloc with_mp with_todel store_default]
  | simple apply blind_for; intro | simple apply blind_forN; intro
  | match goal with |- blind_at ?K ?m => change (blind_at K m); assert (blind m) by (solve [auto 3 with blind]); auto end
  | simple apply blind_bind; [|intro]
  | match goal with
    | H : fine ?K ?p |- out ?p => apply (fine_out K); exact H
    | H : forall o, fine ?K (ptr (ob ?v o)) |- fine ?K (ptr (ob ?v _)) => apply H
    | H : forall o, fine ?K (ptr (ob ?v o)) |- out (ptr (ob ?v _)) => apply (fine_out K), H
    | |- blind_at _ (if ?b then _ else _) => destruct b
    | |- blind_at _ (match ?k with KBuffer => _ | KBorrow => _ | KBorrowSEXP => _ end) => destruct k
    | |- blind_at _ (match ?k with Some _ => _ | None => _ end) => destruct k eqn:?
    | |- blind_at _ (match ?v with VB _ => _ | VI _ => _ | VD _ => _ end) => destruct v
    | |- blind_at _ (match ?v with AS _ => _ | AV _ _ => _ end) => destruct v
    end ].

Lemma blind_fill x v : blind (fill x v). Proof. unfold fill. blinding. Qed.
Hint Resolve blind_fill : blind.
Lemma blind_init x n : blind (init x n). Proof. unfold init. blinding. Qed.
Hint Resolve blind_init : blind.
Lemma blind_resize x n : blind (resize x n). Proof. unfold resize. blinding. Qed.
Lemma blind_sexp_init x n : blind (sexp_init x n). Proof. unfold sexp_init. blinding. Qed.
Hint Resolve blind_resize blind_sexp_init : blind.
Lemma blind_sexp_resize x n : blind (sexp_resize x n). Proof. unfold sexp_resize. blinding. Qed.
Lemma blind_borrow_resize x n : blind (borrow_resize x n). Proof. unfold borrow_resize. blinding. Qed.
Hint Resolve blind_sexp_resize blind_borrow_resize : blind.
Lemma blind_any_resize x n : blind (any_resize x n). Proof. unfold any_resize. blinding. Qed.
Lemma blind_get_at x i : blind (get_at x i). Proof. unfold get_at. blinding. Qed.
Lemma blind_set_at x i v : blind (set_at x i v). Proof. unfold set_at. blinding. Qed.
Lemma blind_sexp_get_at x i : blind (sexp_get_at x i). Proof. unfold sexp_get_at. blinding. Qed.
Lemma blind_sexp_set_at x i v : blind (sexp_set_at x i v). Proof. unfold sexp_set_at. blinding. Qed.
Hint Resolve blind_any_resize blind_get_at blind_set_at blind_sexp_get_at blind_sexp_set_at : blind.
Lemma blind_at_rd x i : blind (at_rd x i). Proof. unfold at_rd. blinding. Qed.
Lemma blind_at_wr x i v : blind (at_wr x i v). Proof. unfold at_wr. blinding. Qed.
Hint Resolve blind_at_rd blind_at_wr : blind.
Lemma blind_moveit x y : blind (moveit x y). Proof. unfold moveit. blinding. Qed.
Lemma blind_sexp_moveit x y : blind (sexp_moveit x y). Proof. unfold sexp_moveit. blinding. Qed.
Lemma blind_destroy x : blind (destroy x). Proof. unfold destroy. blinding. Qed.
Lemma blind_sexp_destroy x : blind (sexp_destroy x). Proof. unfold sexp_destroy. blinding. Qed.
Hint Resolve blind_moveit blind_sexp_moveit blind_destroy blind_sexp_destroy : blind.
Lemma blind_any_destroy x : blind (any_destroy x). Proof. unfold any_destroy. blinding. Qed.
Hint Resolve blind_any_destroy : blind.
Lemma blind_elem lm e : forall i, blind (elem lm e i).
Proof. induction e; intros i; cbn [elem]; blinding; auto. Qed.
Hint Resolve blind_elem : blind.
Lemma blind_take_shape x e : blind (take_shape x e). Proof. unfold take_shape. blinding. Qed.
Lemma blind_fill_temp lm x t e n : blind (fill_temp lm x t e n). Proof. unfold fill_temp. blinding. Qed.
Hint Resolve blind_take_shape blind_fill_temp : blind.
Lemma blind_assign lm x e : blind (assign lm x e).
Proof. unfold assign, assign_buffer, assign_borrow, assign_sexp. blinding. Qed.
Lemma blind_assign_scalar x v : blind (assign_scalar x v). Proof. unfold assign_scalar. blinding. Qed.
Lemma blind_sub_wr x ind i v : blind (sub_wr x ind i v). Proof. unfold sub_wr. blinding. Qed.
Lemma blind_ctor_default x t : blind (ctor_default x t). Proof. unfold ctor_default. blinding. Qed.
Hint Resolve blind_assign blind_assign_scalar blind_sub_wr blind_ctor_default : blind.

Lemma r_len v v' : rel v v' -> length_fn v' = length_fn v.
Proof. intros R. apply functional_extensionality. intros [u|t e]; cbn; [reflexivity|now rewrite (r_esize _ _ R)]. Qed.
Lemma r_coca_size v v' : rel v v' -> coca_size v' = coca_size v.
Proof.
  intros R. apply functional_extensionality. intros l. apply functional_extensionality. induction l as [|[u|t e] l IH]; intros n; cbn [coca_size]; auto.
  - destruct (int_res _); cbn; auto.
  - now rewrite (r_esize _ _ R), IH.
Qed.
Lemma r_at_pos v v' : rel v v' -> at_pos v' = at_pos v.
Proof. intros R. unfold at_pos. now rewrite (rel_ob _ _ R). Qed.
Lemma r_at_mat_pos v v' : rel v v' -> at_mat_pos v' = at_mat_pos v.
Proof. intros R. unfold at_mat_pos. now rewrite (rel_ob _ _ R). Qed.
Lemma r_emp v v' : rel v v' -> emp v' = emp v.
Proof. intros R. unfold emp. now rewrite (rel_ob _ _ R). Qed.
Lemma r_idx_at lm v v' : rel v v' -> idx_at lm v' = idx_at lm v.
Proof.
  intros R. apply functional_extensionality. intros t. apply functional_extensionality. intros e. apply functional_extensionality. intros i.
  unfold idx_at. now rewrite (proj1 (blind_use _ v v' (blind_elem lm e i) R)).
Qed.
Lemma r_ind_vector lm v v' : rel v v' -> calc_ind_vector lm v' = calc_ind_vector lm v.
Proof. intros R. unfold calc_ind_vector. now rewrite (r_idx_at lm v v' R), (r_esize v v' R). Qed.
Lemma r_ind_matrix lm v v' : rel v v' -> calc_ind_matrix lm v' = calc_ind_matrix lm v.
Proof.
  intros R. unfold calc_ind_matrix, int_rows, int_cols, all_before, all_less1, less1_at, mask_ones, mask_rec, mask_own.
  now rewrite (r_idx_at lm v v' R), (r_esize v v' R), (r_eim v v' R), !(r_edim v v' R), (r_emp v v' R).
Qed.
Lemma r_subset_vec lm v v' : rel v v' -> subset_vec lm v' = subset_vec lm v.
Proof. intros R. unfold subset_vec, calc_ind_vector. now rewrite (r_idx_at lm v v' R), (r_esize v v' R). Qed.
Lemma r_subset_mat lm v v' : rel v v' -> subset_mat lm v' = subset_mat lm v.
Proof.
  intros R. unfold subset_mat, calc_ind_matrix, int_rows, int_cols, all_before, all_less1, less1_at, mask_ones, mask_rec, mask_own.
  now rewrite (r_idx_at lm v v' R), (r_esize v v' R), (r_eim v v' R), !(r_edim v v' R), (r_emp v v' R).
Qed.
Ltac norm R ::= rewrite ?(r_esize _ _ R), ?(r_eim _ _ R), ?(r_edim _ _ R), ?(r_len _ _ R), ?(r_coca_size _ _ R),
  ?(r_at_pos _ _ R), ?(r_at_mat_pos _ _ R), ?(rel_ob _ _ R).
Lemma blind_at_vec x i : blind (at_vec x i). Proof. unfold at_vec. blinding. Qed.
Lemma blind_at_mat x i j : blind (at_mat x i j). Proof. unfold at_mat. blinding. Qed.
Lemma blind_at_expr lm e i : blind (at_expr lm e i). Proof. unfold at_expr, vat. blinding. Qed.
Lemma blind_at_mat_expr lm e i j : blind (at_mat_expr lm e i j). Proof. unfold at_mat_expr, vat. cbv zeta. blinding. Qed.
Scheme lexpr_mut := Induction for lexpr Sort Prop with lindex_mut := Induction for lindex Sort Prop.
Lemma r_lbuild_both lm v v' : rel v v' -> forall e, lbuild lm v' e = lbuild lm v e.
Proof.
  intros R. apply (lexpr_mut (fun e => lbuild lm v' e = lbuild lm v e) (fun i => lbuild_index lm v' i = lbuild_index lm v i));
    intros; cbn [lbuild lbuild_index];
    rewrite ?H, ?H0, ?H1, ?(r_subset_vec lm v v' R), ?(r_subset_mat lm v v' R), ?(proj1 (blind_use _ v v' (blind_at_vec _ _) R)), ?(proj1 (blind_use _ v v' (blind_at_mat _ _ _) R)); auto.
  - destruct (lbuild lm v e); cbn [obind]; auto. now rewrite (proj1 (blind_use _ v v' (blind_at_expr lm _ _) R)).
  - destruct (lbuild lm v e); cbn [obind]; auto. now rewrite (proj1 (blind_use _ v v' (blind_at_mat_expr lm _ _ _) R)).
  - now rewrite (r_esize v v' R).
Qed.
Lemma r_lbuild lm v v' : rel v v' -> lbuild lm v' = lbuild lm v.
Proof. intros R. apply functional_extensionality. now apply r_lbuild_both. Qed.
Lemma r_lbuild_index lm v v' : rel v v' -> lbuild_index lm v' = lbuild_index lm v.
Proof. intros R. apply functional_extensionality. intros []; cbn [lbuild_index]; auto. now rewrite (r_lbuild lm v v' R). Qed.
Lemma r_lbuild_arg lm v v' : rel v v' -> lbuild_arg lm v' = lbuild_arg lm v.
Proof. intros R. unfold lbuild_arg. now rewrite (r_lbuild lm v v' R). Qed.
Ltac norm R ::= rewrite ?(r_esize _ _ R), ?(r_eim _ _ R), ?(r_edim _ _ R), ?(r_len _ _ R), ?(r_coca_size _ _ R),
  ?(r_at_pos _ _ R), ?(r_at_mat_pos _ _ R), ?(r_lbuild _ _ _ R), ?(r_lbuild_index _ _ _ R), ?(r_lbuild_arg _ _ _ R),
  ?(r_ind_vector _ _ _ R), ?(r_ind_matrix _ _ _ R), ?(r_subset_vec _ _ _ R), ?(r_subset_mat _ _ _ R), ?(rel_ob _ _ R).

Lemma blind_try {A C} (m : M world A) (k : outcome A -> M world C) : blind m -> (forall o, blind (k o)) ->
  blind (fun w => let (o, w1) := m w in k o w1).
Proof.
  intros Hm Hk K w w' R L. destruct (Hm K w w' R L) as [E [R1 L1]]. destruct (m w) as [o w1], (m w') as [o' w1']; cbn [fst snd] in *; subst o'.
  destruct (Hk o K w1 w1' R1) as [E2 [R2 L2]]; [lia|]. split; [exact E2|]. split; [exact R2|lia].
Qed.
Lemma blind_ext {A} (m m' : M world A) : (forall w, m' w = m w) -> blind m -> blind m'.
Proof. intros E H K w w' R. rewrite !E. now apply H. Qed.
Lemma blind_scoped {A} x (m : M world A) : blind m -> blind (scoped x m).
Proof.
  intros Hm. apply (blind_ext (fun w => let (o, w1) := m w in (match o with Done y => bind (any_destroy x) (fun _ => ret y)
    | Thrown e => bind (any_destroy x) (fun _ => throw e) | Undef u => undef u end) w1)).
  - intros w. unfold scoped. now destruct (m w) as [[y|e|u] w1].
  - apply blind_try; [exact Hm|]. intros [y|e|u]; blinding.
Qed.
Lemma blind_assign_subset lm s x ind same e : blind (assign_subset lm s x ind same e).
Proof. unfold assign_subset. cbv zeta. blinding. apply blind_scoped. blinding. Qed.
Lemma blind_assign_subset_scalar x ind v : blind (assign_subset_scalar x ind v).
Proof. unfold assign_subset_scalar. blinding. Qed.
Hint Resolve blind_assign_subset blind_assign_subset_scalar : blind.

Lemma blind_ctor_size x t n : blind (ctor_size x t n). Proof. unfold ctor_size. blinding. Qed.
Hint Resolve blind_ctor_size : blind.
Lemma blind_vec_sized x t n : blind (vec_sized x t n). Proof. unfold vec_sized. blinding. Qed.
Lemma blind_vec_default x t : blind (vec_default x t). Proof. unfold vec_default. blinding. Qed.
Hint Resolve blind_vec_sized blind_vec_default : blind.
Lemma blind_vec_matrix x t r c : blind (vec_matrix x t r c). Proof. unfold vec_matrix. blinding. Qed.
Lemma blind_vec_destroy x : blind (vec_destroy x). Proof. unfold vec_destroy. blinding. Qed.
Hint Resolve blind_vec_matrix blind_vec_destroy : blind.
Lemma blind_vec_end x : blind (vec_end x). Proof. unfold vec_end. blinding. Qed.
Hint Resolve blind_vec_end : blind.
Lemma blind_catch {A} (m : M world A) (h : exn -> M world A) : blind m -> (forall e, blind (h e)) ->
  blind (fun w => match m w with (Thrown e, w1) => h e w1 | r => r end).
Proof.
  intros Hm Hh. apply (blind_ext (fun w => let (o, w1) := m w in (match o with Thrown e => h e | Done y => ret y | Undef u => undef u end) w1)).
  - intros w. now destruct (m w) as [[y|e|u] w1].
  - apply blind_try; [exact Hm|]. intros [y|e|u]; auto; blinding.
Qed.
Lemma blind_built x m : blind m -> blind (built x m).
Proof. intros Hm. unfold built. apply (blind_catch m (fun e => bind (vec_end x) (fun _ => throw e))); auto. intros e. blinding. Qed.
Hint Resolve blind_built : blind.
Lemma blind_vec_of_expr lm x t e : blind (vec_of_expr lm x t e).
Proof.
  unfold vec_of_expr. cbv zeta. blinding.
  apply (blind_catch (bind (if 0 <? esize v e then resize (OD x) (esize v e) else upd (OD x) (with_sz (esize v e)))
    (fun _ => bind (fill_temp lm (OD x) t e (esize v e)) (fun _ => take_shape (OD x) e)))
    (fun ex => bind (any_destroy (OD x)) (fun _ => throw ex))); [blinding|intros ex; blinding].
Qed.
Lemma blind_vec_steal x s t : blind (vec_steal x s t). Proof. unfold vec_steal, ctor_steal. blinding. Qed.
Hint Resolve blind_vec_of_expr blind_vec_steal : blind.

(* ------------------------------------------------------------------ makers *)

Lemma blind_arg_first lm x : blind (arg_first lm x). Proof. unfold arg_first. blinding. Qed.
Lemma blind_create_rvec x t v : blind (create_rvec x t v). Proof. unfold create_rvec. blinding. Qed.
Hint Resolve blind_arg_first blind_create_rvec : blind.
Lemma blind_vector_fn lm x t v : blind (vector_fn lm x t v). Proof. unfold vector_fn. blinding. Qed.
Lemma blind_rep_loop lm x t e n : forall i c, blind (rep_loop lm x t e n i c).
Proof. induction n as [|n IH]; intros i c; cbn [rep_loop]; blinding; apply IH. Qed.
Hint Resolve blind_vector_fn blind_rep_loop : blind.
Lemma blind_rep_fn lm x i t : blind (rep_fn lm x i t). Proof. unfold rep_fn. cbv zeta. blinding. Qed.
Lemma blind_fill_expr lm o e : blind (fill_expr lm o e). Proof. unfold fill_expr. blinding. Qed.
Hint Resolve blind_rep_fn blind_fill_expr : blind.
Lemma blind_matrix_fn lm x i r c : blind (matrix_fn lm x i r c).
Proof. unfold matrix_fn. blinding; try (apply blind_built; blinding). Qed.
Lemma blind_count_loop {A} x (go : A -> bool) put next n : forall s c, blind (count_loop x go put next n s c).
Proof. induction n as [|n IH]; intros s c; cbn [count_loop]; blinding; apply IH. Qed.
Hint Resolve blind_matrix_fn blind_count_loop : blind.
Lemma blind_colon_int x p q : blind (colon_int x p q). Proof. unfold colon_int. cbv zeta. blinding; try (apply blind_built; blinding). Qed.
Lemma blind_colon_dbl x p q : blind (colon_dbl x p q). Proof. unfold colon_dbl. cbv zeta. blinding; try (apply blind_built; blinding). Qed.
Hint Resolve blind_colon_int blind_colon_dbl : blind.
Lemma blind_colon_fn lm x p q : blind (colon_fn lm x p q).
Proof. unfold colon_fn. cbv zeta. blinding. Qed.
Lemma blind_coca_fill lm x t args : forall i, blind (coca_fill lm x t args i).
Proof. induction args as [|[v|t' e] r IH]; intros i; cbn [coca_fill]; blinding; apply IH. Qed.
Hint Resolve blind_colon_fn blind_coca_fill : blind.
Lemma blind_coca_fn lm x args : blind (coca_fn lm x args). Proof. unfold coca_fn. cbv zeta. blinding. Qed.
Lemma blind_test_fn lm p x e : blind (test_fn lm p x e). Proof. unfold test_fn. blinding; try (apply blind_built; blinding). Qed.
Lemma blind_dim_fn x e : blind (dim_fn x e). Proof. unfold dim_fn. blinding; try (apply blind_built; blinding). Qed.
Hint Resolve blind_coca_fn blind_test_fn blind_dim_fn : blind.
Lemma blind_lmake lm s m : blind (lmake lm s m).
Proof. unfold lmake. intros K. apply blind_get. intros K' v v' L R F. destruct m; norm R; match goal with |- agree _ ?m ?m => change (blind_at K' m) end; blinding. Qed.
Hint Resolve blind_lmake : blind.

(* ---------------------------------------------------------------- programs *)

Lemma blind_lcondition lm c : blind (lcondition lm c). Proof. unfold lcondition, to_scalar, vat. blinding. Qed.
Lemma blind_walk p n : out p -> forall i, blind (walk p i n).
Proof. intros O. induction n as [|n IH]; intros i; cbn [walk]; blinding; apply IH. Qed.
Hint Resolve blind_lcondition blind_walk : blind.
Lemma blind_iterate x : blind (iterate_vec x). Proof. unfold iterate_vec. blinding; apply blind_walk; eauto. Qed.
Hint Resolve blind_iterate : blind.
Lemma blind_lscope x m : blind m -> blind (lscope x m).
Proof.
  intros Hm. apply (blind_ext (fun w => let (o, w1) := m w in (match o with Done true => bind (vec_end x) (fun _ => ret true)
    | Thrown (Ass e) => bind (vec_end x) (fun _ => throw (Ass e)) | o => lift o end) w1)).
  - intros w. unfold lscope. now destruct (m w) as [[[]|[e|]|u] w1].
  - apply blind_try; [exact Hm|]. intros [[]|[e|]|u]; blinding.
Qed.
Lemma blind_jscope x m : blind m -> blind (jscope x m).
Proof.
  intros Hm. apply (blind_ext (fun w => let (o, w1) := m w in (match o with Done More => ret More | Done f => bind (vec_end x) (fun _ => ret f)
    | Thrown (Ass e) => bind (vec_end x) (fun _ => throw (Ass e)) | o => lift o end) w1)).
  - intros w. unfold jscope. now destruct (m w) as [[[]|[e|]|u] w1].
  - apply blind_try; [exact Hm|]. intros [[]|[e|]|u]; blinding.
Qed.
Lemma blind_andthen p q : blind p -> blind q -> blind (andthen p q). Proof. intros; unfold andthen. blinding. Qed.
Lemma blind_rounds k c b : blind c -> blind b -> blind (rounds_of k c b).
Proof. intros Hc Hb. induction k as [|k IH]; cbn [rounds_of]; blinding. now apply blind_andthen. Qed.
Lemma blind_each vs b : (forall v, blind (b v)) -> blind (each vs b).
Proof. intros Hb. induction vs as [|v r IH]; cbn [each]; blinding. now apply blind_andthen. Qed.
Lemma blind_at_vec_set x i v : blind (at_vec_set x i v). Proof. unfold at_vec_set. blinding. Qed.
Lemma blind_at_mat_set x i j v : blind (at_mat_set x i j v). Proof. unfold at_mat_set. blinding. Qed.
Hint Resolve blind_at_vec_set blind_at_mat_set blind_lscope : blind.

Lemma blind_lrun N lm p : blind (lrun N lm p).
Proof.
  induction p; cbn [lrun]; try solve [blinding]; try solve [blinding; apply blind_lscope; blinding; auto].
  - now apply blind_andthen.
  - apply blind_rounds; blinding.
  - intros K. apply blind_bind; [blinding|]. intros v. apply blind_lscope. intros K'. apply blind_bind; [blinding|]. intros vs. now apply blind_each.
  - apply (blind_ext (fun w => let (o, w1) := lrun N lm p1 w in (match o with Thrown (Ass _) => lrun N lm p2 | o => lift o end) w1)).
    + intros w. now destruct (lrun N lm p1 w) as [[y|[e|]|u] w1].
    + apply blind_try; [exact IHp1|]. intros [y|[e|]|u]; blinding.
Qed.
Hint Resolve blind_lrun : blind.

(** Reading a block that may be among [T], if there the worlds agree. *)
Definition seen (a : nat) : Prop := (T a /\ B1 a = B2 a) \/ ~ T a.
Lemma seen_blk w w' a : rel w w' -> seen a -> hblk (hp w') a = hblk (hp w) a.
Proof. intros R [[Ta E]|N]; [destruct (rel_kept _ _ R a Ta); congruence|now apply R]. Qed.
Lemma blind_rd_seen K a i : seen a -> blind_at K (rd (Some a) i).
Proof.
  intros N w w' R L. unfold rd. rewrite (seen_blk _ _ a R N).
  destruct (hblk (hp w) a) as [|o cs|] eqn:E; try stay. destruct (_ && _); [|stay]. destruct (nth _ _ _); stay.
Qed.
Lemma blind_assign_R x r : seen (r_mem r) -> blind (assign_R x r).
Proof.
  intros N. unfold assign_R, init_sexp, r_length, r_copy. intros K.
  apply blind_st. intros K1 s L1 F1. apply blind_bind; [blinding|]. intros _. apply blind_bind; [blinding|]. intros _.
  assert (RD : forall i, blind (rd (Some (r_mem r)) i)) by (intros i K'; now apply blind_rd_seen).
  apply blind_bind; [|revert RD; generalize (rd (Some (r_mem r))); intros rdr RD n; blinding].
  intros w w' R L. rewrite (seen_blk _ _ _ R N). destruct (hblk _ _) as [|[] cs|]; try stay. destruct (_ <=? _); stay.
Qed.
End Blind.
