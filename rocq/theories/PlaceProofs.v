(** Where memory is does not matter.  Two worlds that hold the same in different
    places ([pi] gives the place in the second one, [N0] and [N1] are the places
    given out next, [B] is what else there is in the second) are worlds of the
    same kind after any computation. *)
From Coq Require Import ZArith List String Bool Lia FunctionalExtensionality.
From Verif Require Import Base Num StoreModel VecModel SubsetModel AllocModel ProgModel LangModel OutModel ForeignModel CallModel JumpModel WrapCallModel SpecPlace.
Import ListNotations.
Open Scope Z_scope.
Local Notation length := List.length (only parsing).

Section Place.
Variables (pi : nat -> nat) (N0 N1 : nat) (B : nat -> block).
Hypothesis pi_inj : forall a b, pi a = pi b -> a = b.
Hypothesis pi_next : forall k, pi (N0 + k) = (N1 + k)%nat.

Record rel (w w' : world) : Prop := {
  rel_ob : ob w' = fun o => ren pi (ob w o);
  rel_lim : hlim (hp w') = hlim (hp w);
  rel_next : exists k, hnext (hp w) = (N0 + k)%nat /\ hnext (hp w') = (N1 + k)%nat;
  rel_blk : forall a, hblk (hp w') (pi a) = hblk (hp w) a;
  rel_rest : forall a, (forall b, pi b <> a) -> hblk (hp w') a = B a }.

Definition agree {A} (r : A -> A) (m m' : M world A) : Prop := forall w w', rel w w' ->
  same_end r (fst (m w)) (fst (m' w')) /\ rel (snd (m w)) (snd (m' w')).
Notation id_ := (fun x => x).
Definition still {A} (m : M world A) : Prop := agree id_ m m.

Ltac stay := split; [reflexivity|assumption].
Lemma mv_bind_r {A C} (q : A -> A) (r : C -> C) (m m' : M world A) (f f' : A -> M world C) :
  agree q m m' -> (forall x, agree r (f x) (f' (q x))) -> agree r (bind m f) (bind m' f').
Proof.
  intros Hm Hf w w' R. destruct (Hm w w' R) as [E R1]. unfold bind.
  destruct (m w) as [[x|e|u] w1], (m' w') as [[y|e'|u'] w2]; cbn [fst snd same_end] in *; try contradiction; subst; auto.
  now apply Hf.
Qed.
Lemma mv_bind {A C} (r : C -> C) (m m' : M world A) (f f' : A -> M world C) :
  agree id_ m m' -> (forall x, agree r (f x) (f' x)) -> agree r (bind m f) (bind m' f').
Proof. apply mv_bind_r. Qed.
Lemma mv_ret {A} (r : A -> A) (x : A) : agree r (ret x) (ret (r x)). Proof. intros w w' R. stay. Qed.
Lemma mv_ret_id {A} (x : A) : agree id_ (ret x) (ret x). Proof. intros w w' R. stay. Qed.
Lemma mv_throw {A} (r : A -> A) e : agree r (throw e) (throw e). Proof. intros w w' R. stay. Qed.
Lemma mv_undef {A} (r : A -> A) e : agree r (undef e) (undef e). Proof. intros w w' R. stay. Qed.
Lemma mv_lift {A} (x : outcome A) : agree id_ (lift x) (lift x). Proof. intros w w' R. destruct x; stay. Qed.
Lemma mv_ass b m : agree id_ (ass b m) (ass b m). Proof. intros w w' R. unfold ass. destruct b; stay. Qed.
Lemma mv_get {A} (r : A -> A) (f f' : world -> M world A) : (forall v v', rel v v' -> agree r (f v) (f' v')) -> agree r (bind get f) (bind get f').
Proof. intros H w w' R. unfold bind, get. now apply (H w w'). Qed.
Lemma mv_st {A} (r : A -> A) o (f f' : store -> M world A) : (forall s, agree r (f s) (f' (ren pi s))) -> agree r (bind (st o) f) (bind (st o) f').
Proof. intros H w w' R. unfold bind, st. rewrite (rel_ob _ _ R). now apply H. Qed.
Lemma mv_st_alone o : agree (ren pi) (st o) (st o).
Proof. intros w w' R. unfold st. cbn. rewrite (rel_ob _ _ R). stay. Qed.
Lemma rel_alloc w w' own n : rel w w' ->
  rel (set_hp w (mkHeap (S (hnext (hp w))) (fun a' => if Nat.eqb a' (hnext (hp w)) then Live own (repeat None (Z.to_nat n)) else hblk (hp w) a') (hlim (hp w))))
    (set_hp w' (mkHeap (S (hnext (hp w'))) (fun a' => if Nat.eqb a' (hnext (hp w')) then Live own (repeat None (Z.to_nat n)) else hblk (hp w') a') (hlim (hp w')))).
Proof.
  intros [R1 R2 [k [E E']] R4 R5]. constructor; cbn [hp ob set_hp hlim hnext hblk]; auto.
  - exists (S k). lia.
  - intros a. rewrite E, E', <- (pi_next k). destruct (Nat.eqb_spec a (N0 + k)) as [->|N]; [now rewrite Nat.eqb_refl|].
    destruct (Nat.eqb_spec (pi a) (pi (N0 + k))) as [Q|_]; [elim N; now apply pi_inj|apply R4].
  - intros a H. destruct (Nat.eqb_spec a (hnext (hp w'))) as [Q|_]; [|auto]. elim (H (N0 + k)%nat). now rewrite pi_next, Q.
Qed.
Lemma rel_pi_next w w' : rel w w' -> hnext (hp w') = pi (hnext (hp w)).
Proof. intros [R1 R2 [k [-> ->]] R4 R5]. now rewrite pi_next. Qed.
Lemma mv_new_alone n : agree pi (new_ n) (new_ n).
Proof.
  intros w w' R. unfold new_. rewrite (rel_lim _ _ R). destruct (n <=? _); [|stay]. cbn [fst snd].
  split; [cbn; now apply rel_pi_next|]. rewrite <- (rel_lim _ _ R) at 2. now apply rel_alloc.
Qed.
Lemma mv_r_new_alone n : agree pi (r_new n) (r_new n).
Proof.
  intros w w' R. unfold r_new. rewrite (rel_lim _ _ R). destruct (n <=? _); [|stay]. cbn [fst snd].
  split; [cbn; now apply rel_pi_next|]. rewrite <- (rel_lim _ _ R) at 2. now apply rel_alloc.
Qed.
Lemma mv_new {A} (r : A -> A) n (f f' : nat -> M world A) : (forall p, agree r (f p) (f' (pi p))) -> agree r (bind (new_ n) f) (bind (new_ n) f').
Proof. intros H. apply (mv_bind_r pi); [apply mv_new_alone|exact H]. Qed.
Lemma mv_r_new {A} (r : A -> A) n (f f' : nat -> M world A) : (forall p, agree r (f p) (f' (pi p))) -> agree r (bind (r_new n) f) (bind (r_new n) f').
Proof. intros H. apply (mv_bind_r pi); [apply mv_r_new_alone|exact H]. Qed.
Lemma rel_blk_set w w' a b : rel w w' -> rel (set_hp w (set_blk (hp w) a b)) (set_hp w' (set_blk (hp w') (pi a) b)).
Proof.
  intros [R1 R2 R3 R4 R5]. constructor; cbn [hp ob set_hp set_blk hlim hnext hblk]; auto.
  - intros c. destruct (Nat.eqb_spec c a) as [->|N]; [now rewrite Nat.eqb_refl|].
    destruct (Nat.eqb_spec (pi c) (pi a)) as [Q|_]; [elim N; now apply pi_inj|apply R4].
  - intros c H. destruct (Nat.eqb_spec c (pi a)) as [->|_]; [now elim (H a)|auto].
Qed.
Lemma mv_del p : agree id_ (del p) (del (option_map pi p)).
Proof.
  intros w w' R. unfold del. destruct p as [b|]; cbn [option_map]; [|stay]. rewrite (rel_blk _ _ R).
  destruct (hblk _ b) as [|[] cs|]; try stay. split; [reflexivity|]. now apply rel_blk_set.
Qed.
Lemma mv_wrc p i c : agree id_ (wrc p i c) (wrc (option_map pi p) i c).
Proof.
  intros w w' R. unfold wrc. destruct p as [b|]; cbn [option_map]; [|stay]. rewrite (rel_blk _ _ R). destruct (hblk _ b) as [|o cs|]; try stay.
  destruct (_ && _); [|stay]. split; [reflexivity|]. now apply rel_blk_set.
Qed.
Lemma mv_wr p i c : agree id_ (wr p i c) (wr (option_map pi p) i c). Proof. apply mv_wrc. Qed.
Lemma mv_wr_some p i c : agree id_ (wr (Some p) i c) (wr (Some (pi p)) i c). Proof. apply (mv_wrc (Some p)). Qed.
Lemma mv_copy p q i : agree id_ (copy_cell p q i) (copy_cell (option_map pi p) (option_map pi q) i).
Proof.
  intros w w' R. unfold copy_cell. destruct p as [b|]; cbn [option_map]; [|stay]. rewrite (rel_blk _ _ R). destruct (hblk _ b) as [|o cs|]; try stay.
  destruct (_ && _); [|stay]. now apply mv_wrc.
Qed.
Lemma mv_copy_some p q i : agree id_ (copy_cell p (Some q) i) (copy_cell (option_map pi p) (Some (pi q)) i).
Proof. apply (mv_copy p (Some q)). Qed.
Lemma mv_rd p i : agree id_ (rd p i) (rd (option_map pi p) i).
Proof.
  intros w w' R. unfold rd. destruct p as [b|]; cbn [option_map]; [|stay]. rewrite (rel_blk _ _ R). destruct (hblk _ b) as [|o cs|]; try stay.
  destruct (_ && _); [|stay]. destruct (nth _ _ _); stay.
Qed.
Lemma mv_rd_some p i : agree id_ (rd (Some p) i) (rd (Some (pi p)) i). Proof. apply (mv_rd (Some p)). Qed.
Lemma mv_upd o g g' : (forall s, g' (ren pi s) = ren pi (g s)) -> agree id_ (upd o g) (upd o g').
Proof.
  intros H w w' R. unfold upd. cbn [fst snd]. split; [reflexivity|]. destruct R as [R1 R2 R3 R4 R5]. constructor; cbn [hp ob set_ob]; auto.
  rewrite R1. apply functional_extensionality. intros o'. destruct (oid_eqb o' o); auto.
Qed.
Lemma mv_forN n : forall i body body', (forall k, agree id_ (body k) (body' k)) -> agree id_ (forN n i body) (forN n i body').
Proof. induction n as [|n IH]; intros i body body' Hb; cbn [forN]; [apply mv_ret_id|]. apply mv_bind; auto. Qed.
Lemma mv_for n body body' : (forall k, agree id_ (body k) (body' k)) -> agree id_ (for_ n body) (for_ n body').
Proof. apply mv_forN. Qed.
Lemma reads_use {A} (m : M world A) w w' : still m -> rel w w' -> fst (m w') = fst (m w).
Proof. intros H R. destruct (H w w' R) as [E _]. destruct (fst (m w)), (fst (m w')); cbn in E; try contradiction; congruence. Qed.
Create HintDb mv.

Lemma r_esize v v' : rel v v' -> esize v' = esize v.
Proof. intros R. apply functional_extensionality. intros e. induction e; cbn [esize]; auto; [now rewrite (rel_ob _ _ R)|now rewrite IHe1, IHe2]. Qed.
Lemma r_eim v v' : rel v v' -> eim v' = eim v.
Proof. intros R. apply functional_extensionality. intros e. induction e; cbn [eim]; rewrite ?(rel_ob _ _ R), ?IHe, ?IHe1, ?IHe2; reflexivity. Qed.
Lemma r_edim v v' : rel v v' -> forall p, edim p v' = edim p v.
Proof.
  intros R p. apply functional_extensionality. intros e. induction e; cbn [edim]; rewrite ?(rel_ob _ _ R), ?(r_eim _ _ R); auto.
  now rewrite IHe1, IHe2.
Qed.

Ltac fields := cbn [kd sty ptr sz cap alloc mp todel ren option_map r_mem r_ty r_dim ren_obj].
Ltac norm R := rewrite ?(r_esize _ _ R), ?(r_eim _ _ R), ?(r_edim _ _ R), ?(rel_ob _ _ R).
Ltac moving := intros; repeat first
  [ assumption | discriminate
  | match goal with |- still _ => unfold still end
  | simple apply mv_ret_id | simple apply mv_throw | simple apply mv_undef | simple apply mv_lift | simple apply mv_ass
  | simple apply mv_get; let v := fresh "v" in let v' := fresh "v'" in let R := fresh "R" in intros v v' R; norm R; fields; try clear v' R
  | simple apply mv_st; intro; fields | simple apply mv_new; intro | simple apply mv_r_new; intro
  | simple apply mv_rd_some | simple apply mv_wr_some | simple apply mv_copy_some
  | simple apply mv_rd | simple apply mv_wr | simple apply mv_wrc | simple apply mv_del | simple apply mv_copy
  | simple apply mv_upd; intro; solve [reflexivity]
  | simple apply mv_for; intro | simple apply mv_forN; intro
  | match goal with |- agree _ ?m ?m => change (still m); solve [auto 3 with mv] end
  | match goal with |- context [match option_map pi ?p with Some _ => _ | None => _ end] => destruct p eqn:?; cbn [option_map] end
  | simple apply mv_bind; [|intro]
  | match goal with
    | |- agree _ (if ?b then _ else _) _ => destruct b
    | |- agree _ (match ?k with KBuffer => _ | KBorrow => _ | KBorrowSEXP => _ end) _ => destruct k
    | |- agree _ (match ?k with Some _ => _ | None => _ end) _ => destruct k eqn:?
    | |- agree _ (match ?v with VB _ => _ | VI _ => _ | VD _ => _ end) _ => destruct v
    | |- agree _ (match ?v with AS _ => _ | AV _ _ => _ end) _ => destruct v
    end ].
Lemma mv_fill x v : still (fill x v). Proof. unfold fill. moving. Qed.
Hint Resolve mv_fill : mv.
Lemma mv_init x n : still (init x n). Proof. unfold init. moving. Qed.
Hint Resolve mv_init : mv.
Lemma mv_resize x n : still (resize x n). Proof. unfold resize. moving. Qed.
Lemma mv_sexp_init x n : still (sexp_init x n). Proof. unfold sexp_init. moving. Qed.
Hint Resolve mv_resize mv_sexp_init : mv.
Lemma mv_sexp_resize x n : still (sexp_resize x n). Proof. unfold sexp_resize. moving. Qed.
Lemma mv_borrow_resize x n : still (borrow_resize x n). Proof. unfold borrow_resize. moving. Qed.
Hint Resolve mv_sexp_resize mv_borrow_resize : mv.
Lemma mv_any_resize x n : still (any_resize x n). Proof. unfold any_resize. moving. Qed.
Lemma mv_get_at x i : still (get_at x i). Proof. unfold get_at. moving. Qed.
Lemma mv_set_at x i v : still (set_at x i v). Proof. unfold set_at. moving. Qed.
Lemma mv_sexp_get_at x i : still (sexp_get_at x i). Proof. unfold sexp_get_at. moving. Qed.
Lemma mv_sexp_set_at x i v : still (sexp_set_at x i v). Proof. unfold sexp_set_at. moving. Qed.
Hint Resolve mv_any_resize mv_get_at mv_set_at mv_sexp_get_at mv_sexp_set_at : mv.
Lemma mv_at_rd x i : still (at_rd x i). Proof. unfold at_rd. moving. Qed.
Lemma mv_at_wr x i v : still (at_wr x i v). Proof. unfold at_wr. moving. Qed.
Hint Resolve mv_at_rd mv_at_wr : mv.
Lemma mv_moveit x y : still (moveit x y). Proof. unfold moveit. moving. Qed.
Lemma mv_sexp_moveit x y : still (sexp_moveit x y). Proof. unfold sexp_moveit. moving. Qed.
Lemma mv_destroy x : still (destroy x). Proof. unfold destroy. moving. Qed.
Lemma mv_sexp_destroy x : still (sexp_destroy x). Proof. unfold sexp_destroy. moving. Qed.
Hint Resolve mv_moveit mv_sexp_moveit mv_destroy mv_sexp_destroy : mv.
Lemma mv_any_destroy x : still (any_destroy x). Proof. unfold any_destroy. moving. Qed.
Hint Resolve mv_any_destroy : mv.
Lemma mv_elem lm e : forall i, still (elem lm e i).
Proof. induction e; intros i; cbn [elem]; moving; auto. Qed.
Hint Resolve mv_elem : mv.
Lemma mv_take_shape x e : still (take_shape x e). Proof. unfold take_shape. moving. Qed.
Lemma mv_fill_temp lm x t e n : still (fill_temp lm x t e n). Proof. unfold fill_temp. moving. Qed.
Hint Resolve mv_take_shape mv_fill_temp : mv.
Lemma mv_assign lm x e : still (assign lm x e).
Proof. unfold assign, assign_buffer, assign_borrow, assign_sexp. moving. Qed.
Lemma mv_assign_scalar x v : still (assign_scalar x v). Proof. unfold assign_scalar. moving. Qed.
Lemma mv_sub_wr x ind i v : still (sub_wr x ind i v). Proof. unfold sub_wr. moving. Qed.
Lemma mv_ctor_default x t : still (ctor_default x t). Proof. unfold ctor_default. moving. Qed.
Hint Resolve mv_assign mv_assign_scalar mv_sub_wr mv_ctor_default : mv.

Lemma r_len v v' : rel v v' -> length_fn v' = length_fn v.
Proof. intros R. apply functional_extensionality. intros [u|t e]; cbn; [reflexivity|now rewrite (r_esize _ _ R)]. Qed.
Lemma r_coca_size v v' : rel v v' -> coca_size v' = coca_size v.
Proof.
  intros R. apply functional_extensionality. intros l. apply functional_extensionality. induction l as [|[u|t e] l IH]; intros n; cbn [coca_size]; auto.
  - destruct (int_res _); cbn; auto.
  - now rewrite (r_esize _ _ R), IH.
Qed.
Lemma r_at_pos v v' : rel v v' -> at_pos v' = at_pos v.
Proof. intros R. unfold at_pos. now rewrite (rel_ob _ _ R). Qed.
Lemma r_at_mat_pos v v' : rel v v' -> at_mat_pos v' = at_mat_pos v.
Proof. intros R. unfold at_mat_pos. now rewrite (rel_ob _ _ R). Qed.
Lemma r_emp v v' : rel v v' -> emp v' = emp v.
Proof. intros R. unfold emp. now rewrite (rel_ob _ _ R). Qed.
Lemma r_idx_at lm v v' : rel v v' -> idx_at lm v' = idx_at lm v.
Proof.
  intros R. apply functional_extensionality. intros t. apply functional_extensionality. intros e. apply functional_extensionality. intros i.
  unfold idx_at. now rewrite (reads_use _ v v' (mv_elem lm e i) R).
Qed.
Lemma r_ind_vector lm v v' : rel v v' -> calc_ind_vector lm v' = calc_ind_vector lm v.
Proof. intros R. unfold calc_ind_vector. now rewrite (r_idx_at lm v v' R), (r_esize v v' R). Qed.
Lemma r_ind_matrix lm v v' : rel v v' -> calc_ind_matrix lm v' = calc_ind_matrix lm v.
Proof.
  intros R. unfold calc_ind_matrix, int_rows, int_cols, all_before, all_less1, less1_at, mask_ones, mask_rec, mask_own.
  now rewrite (r_idx_at lm v v' R), (r_esize v v' R), (r_eim v v' R), !(r_edim v v' R), (r_emp v v' R).
Qed.
Lemma r_subset_vec lm v v' : rel v v' -> subset_vec lm v' = subset_vec lm v.
Proof. intros R. unfold subset_vec, calc_ind_vector. now rewrite (r_idx_at lm v v' R), (r_esize v v' R). Qed.
Lemma r_subset_mat lm v v' : rel v v' -> subset_mat lm v' = subset_mat lm v.
Proof.
  intros R. unfold subset_mat, calc_ind_matrix, int_rows, int_cols, all_before, all_less1, less1_at, mask_ones, mask_rec, mask_own.
  now rewrite (r_idx_at lm v v' R), (r_esize v v' R), (r_eim v v' R), !(r_edim v v' R), (r_emp v v' R).
Qed.
Ltac norm R ::= rewrite ?(r_esize _ _ R), ?(r_eim _ _ R), ?(r_edim _ _ R), ?(r_len _ _ R), ?(r_coca_size _ _ R),
  ?(r_at_pos _ _ R), ?(r_at_mat_pos _ _ R), ?(rel_ob _ _ R).
Lemma mv_at_vec x i : still (at_vec x i). Proof. unfold at_vec. moving. Qed.
Lemma mv_at_mat x i j : still (at_mat x i j). Proof. unfold at_mat. moving. Qed.
Lemma mv_at_expr lm e i : still (at_expr lm e i). Proof. unfold at_expr, vat. moving. Qed.
Lemma mv_at_mat_expr lm e i j : still (at_mat_expr lm e i j). Proof. unfold at_mat_expr, vat. cbv zeta. moving. Qed.
Scheme lexpr_mut := Induction for lexpr Sort Prop with lindex_mut := Induction for lindex Sort Prop.
Lemma r_lbuild_both lm v v' : rel v v' -> forall e, lbuild lm v' e = lbuild lm v e.
Proof.
  intros R. apply (lexpr_mut (fun e => lbuild lm v' e = lbuild lm v e) (fun i => lbuild_index lm v' i = lbuild_index lm v i));
    intros; cbn [lbuild lbuild_index];
    rewrite ?H, ?H0, ?H1, ?(r_subset_vec lm v v' R), ?(r_subset_mat lm v v' R), ?(reads_use _ v v' (mv_at_vec _ _) R), ?(reads_use _ v v' (mv_at_mat _ _ _) R); auto.
  - destruct (lbuild lm v e); cbn [obind]; auto. now rewrite (reads_use _ v v' (mv_at_expr lm _ _) R).
  - destruct (lbuild lm v e); cbn [obind]; auto. now rewrite (reads_use _ v v' (mv_at_mat_expr lm _ _ _) R).
  - now rewrite (r_esize v v' R).
Qed.
Lemma r_lbuild lm v v' : rel v v' -> lbuild lm v' = lbuild lm v.
Proof. intros R. apply functional_extensionality. now apply r_lbuild_both. Qed.
Lemma r_lbuild_index lm v v' : rel v v' -> lbuild_index lm v' = lbuild_index lm v.
Proof. intros R. apply functional_extensionality. intros []; cbn [lbuild_index]; auto. now rewrite (r_lbuild lm v v' R). Qed.
Lemma r_lbuild_arg lm v v' : rel v v' -> lbuild_arg lm v' = lbuild_arg lm v.
Proof. intros R. unfold lbuild_arg. now rewrite (r_lbuild lm v v' R). Qed.
Ltac norm R ::= rewrite ?(r_esize _ _ R), ?(r_eim _ _ R), ?(r_edim _ _ R), ?(r_len _ _ R), ?(r_coca_size _ _ R),
  ?(r_at_pos _ _ R), ?(r_at_mat_pos _ _ R), ?(r_lbuild _ _ _ R), ?(r_lbuild_index _ _ _ R), ?(r_lbuild_arg _ _ _ R),
  ?(r_ind_vector _ _ _ R), ?(r_ind_matrix _ _ _ R), ?(r_subset_vec _ _ _ R), ?(r_subset_mat _ _ _ R), ?(rel_ob _ _ R).

(** What is done with the outcome of m. *)
Definition on_end {A C} (m : M world A) (k : outcome A -> M world C) : M world C := fun w => let (o, w1) := m w in k o w1.
Lemma mv_try {A C} (q : A -> A) (r : C -> C) (m m' : M world A) (k k' : outcome A -> M world C) : agree q m m' ->
  (forall o o', same_end q o o' -> agree r (k o) (k' o')) -> agree r (on_end m k) (on_end m' k').
Proof.
  intros Hm Hk w w' R. unfold on_end. destruct (Hm w w' R) as [E R1]. destruct (m w) as [o w1], (m' w') as [o' w2]. now apply (Hk o o').
Qed.
Lemma mv_ext {A} (r : A -> A) (m m' n n' : M world A) : (forall w, n w = m w) -> (forall w, n' w = m' w) -> agree r m m' -> agree r n n'.
Proof. intros E E' H w w' R. rewrite E, E'. now apply H. Qed.
Ltac ends := intros [?|?|?] [?|?|?] E; cbn [same_end] in E; try contradiction; subst.
Lemma mv_scoped {A} x (m m' : M world A) : agree id_ m m' -> agree id_ (scoped x m) (scoped x m').
Proof.
  intros Hm. set (k := fun o : outcome A => match o with Done y => bind (any_destroy x) (fun _ => ret y)
    | Thrown e => bind (any_destroy x) (fun _ => throw e) | Undef u => undef u end).
  apply (mv_ext _ (on_end m k) (on_end m' k)); try (intros w; unfold scoped, on_end, k; match goal with |- context [let (_, _) := ?n w in _] => now destruct (n w) as [[y|e|u] w1] end).
  apply (mv_try id_); [exact Hm|]. ends; unfold k; moving.
Qed.
Lemma mv_assign_subset lm s x ind same e : still (assign_subset lm s x ind same e).
Proof. unfold assign_subset. cbv zeta. moving; try (apply mv_scoped; moving). Qed.
Lemma mv_assign_subset_scalar x ind v : still (assign_subset_scalar x ind v).
Proof. unfold assign_subset_scalar. moving. Qed.
Hint Resolve mv_assign_subset mv_assign_subset_scalar : mv.

Lemma mv_ctor_size x t n : still (ctor_size x t n). Proof. unfold ctor_size. moving. Qed.
Hint Resolve mv_ctor_size : mv.
Lemma mv_vec_sized x t n : still (vec_sized x t n). Proof. unfold vec_sized. moving. Qed.
Lemma mv_vec_default x t : still (vec_default x t). Proof. unfold vec_default. moving. Qed.
Hint Resolve mv_vec_sized mv_vec_default : mv.
Lemma mv_vec_matrix x t r c : still (vec_matrix x t r c). Proof. unfold vec_matrix. moving. Qed.
Lemma mv_vec_destroy x : still (vec_destroy x). Proof. unfold vec_destroy. moving. Qed.
Hint Resolve mv_vec_matrix mv_vec_destroy : mv.
Lemma mv_vec_end x : still (vec_end x). Proof. unfold vec_end. moving. Qed.
Hint Resolve mv_vec_end : mv.
Lemma mv_catch {A} (m m' : M world A) (c : M world unit) : agree id_ m m' -> still c ->
  agree id_ (fun w => match m w with (Thrown e, w1) => bind c (fun _ => throw e) w1 | r => r end)
    (fun w => match m' w with (Thrown e, w1) => bind c (fun _ => throw e) w1 | r => r end).
Proof.
  intros Hm Hc. set (k := fun o : outcome A => match o with Thrown e => bind c (fun _ => throw e) | Done y => ret y | Undef u => undef u end).
  apply (mv_ext _ (on_end m k) (on_end m' k)); try (intros w; unfold on_end, k; match goal with |- context [let (_, _) := ?n w in _] => now destruct (n w) as [[y|e|u] w1] end).
  apply (mv_try id_); [exact Hm|]. ends; unfold k; moving.
Qed.
Lemma mv_built_2 x m m' : agree id_ m m' -> agree id_ (built x m) (built x m').
Proof. intros Hm. unfold built. apply (mv_catch m m' (vec_end x)); auto with mv. Qed.
Lemma mv_built x m : still m -> still (built x m).
Proof. apply mv_built_2. Qed.
Hint Resolve mv_built : mv.
Lemma mv_vec_of_expr lm x t e : still (vec_of_expr lm x t e).
Proof.
  unfold vec_of_expr. cbv zeta. moving.
  match goal with |- agree _ (fun w => match ?m w with _ => _ end) (fun v => match ?m' v with _ => _ end) =>
    apply (mv_catch m m' (any_destroy (OD x))); moving end.
Qed.
Lemma mv_vec_steal x s t : still (vec_steal x s t). Proof. unfold vec_steal, ctor_steal. moving. Qed.
Hint Resolve mv_vec_of_expr mv_vec_steal : mv.

(* ------------------------------------------------------------------ makers *)

Lemma mv_arg_first lm x : still (arg_first lm x). Proof. unfold arg_first. moving. Qed.
Lemma mv_create_rvec x t v : still (create_rvec x t v). Proof. unfold create_rvec. moving. Qed.
Hint Resolve mv_arg_first mv_create_rvec : mv.
Lemma mv_vector_fn lm x t v : still (vector_fn lm x t v). Proof. unfold vector_fn. moving. Qed.
Lemma mv_rep_loop lm x t e n : forall i c, still (rep_loop lm x t e n i c).
Proof. induction n as [|n IH]; intros i c; cbn [rep_loop]; moving; apply IH. Qed.
Hint Resolve mv_vector_fn mv_rep_loop : mv.
Lemma mv_rep_fn lm x i t : still (rep_fn lm x i t). Proof. unfold rep_fn. cbv zeta. moving. Qed.
Lemma mv_fill_expr lm o e : still (fill_expr lm o e). Proof. unfold fill_expr. moving. Qed.
Hint Resolve mv_rep_fn mv_fill_expr : mv.
Lemma mv_matrix_fn lm x i r c : still (matrix_fn lm x i r c).
Proof. unfold matrix_fn. moving; try (apply mv_built_2; moving). Qed.
Lemma mv_count_loop {A} x (go : A -> bool) put next n : forall s c, still (count_loop x go put next n s c).
Proof. induction n as [|n IH]; intros s c; cbn [count_loop]; moving; apply IH. Qed.
Hint Resolve mv_matrix_fn mv_count_loop : mv.
Lemma mv_colon_int x p q : still (colon_int x p q). Proof. unfold colon_int. cbv zeta. moving; try (apply mv_built_2; moving). Qed.
Lemma mv_colon_dbl x p q : still (colon_dbl x p q). Proof. unfold colon_dbl. cbv zeta. moving; try (apply mv_built_2; moving). Qed.
Hint Resolve mv_colon_int mv_colon_dbl : mv.
Lemma mv_colon_fn lm x p q : still (colon_fn lm x p q).
Proof. unfold colon_fn. cbv zeta. moving. Qed.
Lemma mv_coca_fill lm x t args : forall i, still (coca_fill lm x t args i).
Proof. induction args as [|[v|t' e] r IH]; intros i; cbn [coca_fill]; moving; apply IH. Qed.
Hint Resolve mv_colon_fn mv_coca_fill : mv.
Lemma mv_coca_fn lm x args : still (coca_fn lm x args). Proof. unfold coca_fn. cbv zeta. moving. Qed.
Lemma mv_test_fn lm p x e : still (test_fn lm p x e). Proof. unfold test_fn. moving; try (apply mv_built_2; moving). Qed.
Lemma mv_dim_fn x e : still (dim_fn x e). Proof. unfold dim_fn. moving; try (apply mv_built_2; moving). Qed.
Hint Resolve mv_coca_fn mv_test_fn mv_dim_fn : mv.
Lemma mv_lmake lm s m : still (lmake lm s m).
Proof. unfold lmake. apply mv_get. intros v v' R. destruct m; norm R; moving. Qed.
Hint Resolve mv_lmake : mv.

(* ---------------------------------------------------------------- programs *)

Lemma mv_lcondition lm c : still (lcondition lm c). Proof. unfold lcondition, to_scalar, vat. moving. Qed.
Lemma mv_walk p n : forall i, agree id_ (walk p i n) (walk (option_map pi p) i n).
Proof. induction n as [|n IH]; intros i; cbn [walk]; moving; apply IH. Qed.
Hint Resolve mv_lcondition : mv.
Lemma mv_iterate x : still (iterate_vec x). Proof. unfold iterate_vec. moving; apply mv_walk. Qed.
Hint Resolve mv_iterate : mv.
Ltac ended := intros w; unfold lscope, jscope, lifetime, on_end;
  match goal with |- context [let (_, _) := ?n w in _] => now destruct (n w) as [[[]|[e|]|u] w1] end.
Lemma mv_lscope x m : still m -> still (lscope x m).
Proof.
  intros Hm. set (k := fun o : outcome bool => match o with Done true => bind (vec_end x) (fun _ => ret true)
    | Thrown (Ass e) => bind (vec_end x) (fun _ => throw (Ass e)) | o => lift o end).
  apply (mv_ext _ (on_end m k) (on_end m k)); [unfold k; ended|unfold k; ended|].
  apply (mv_try id_); [exact Hm|]. intros [[]|[e|]|u] o' E; destruct o'; cbn [same_end] in E; try contradiction; subst; unfold k; moving.
Qed.
Lemma mv_andthen p q : still p -> still q -> still (andthen p q). Proof. intros; unfold andthen. moving. Qed.
Lemma mv_rounds k c b : still c -> still b -> still (rounds_of k c b).
Proof. intros Hc Hb. induction k as [|k IH]; cbn [rounds_of]; moving. now apply mv_andthen. Qed.
Lemma mv_each vs b : (forall v, still (b v)) -> still (each vs b).
Proof. intros Hb. induction vs as [|v r IH]; cbn [each]; moving. now apply mv_andthen. Qed.
Lemma mv_at_vec_set x i v : still (at_vec_set x i v). Proof. unfold at_vec_set. moving. Qed.
Lemma mv_at_mat_set x i j v : still (at_mat_set x i j v). Proof. unfold at_mat_set. moving. Qed.
Hint Resolve mv_at_vec_set mv_at_mat_set mv_lscope : mv.

Lemma mv_lrun N lm p : still (lrun N lm p).
Proof.
  induction p; cbn [lrun]; try solve [moving]; try solve [moving; apply mv_lscope; moving; auto].
  - now apply mv_andthen.
  - apply mv_rounds; moving.
  - apply mv_bind; [moving|]. intros v. apply mv_lscope. apply mv_bind; [moving|]. intros vs. now apply mv_each.
  - set (k := fun o : outcome bool => match o with Thrown (Ass _) => lrun N lm p2 | o => lift o end).
    apply (mv_ext _ (on_end (lrun N lm p1) k) (on_end (lrun N lm p1) k));
      try (intros w; unfold on_end, k; now destruct (lrun N lm p1 w) as [[y|[e|]|u] w1]).
    apply (mv_try id_); [exact IHp1|]. intros [y|[e|]|u] o' E; destruct o'; cbn [same_end] in E; try contradiction; subst; unfold k; moving.
Qed.
Hint Resolve mv_lrun : mv.

(* ------------------------------------------------------------ calls from R *)

Notation obj := (ren_obj pi).
Lemma mv_cpp2R lm t e : agree obj (cpp2R lm t e) (cpp2R lm t e).
Proof.
  unfold cpp2R. apply mv_get. intros v v' R. norm R. apply (mv_bind_r obj).
  - unfold r_matrix, r_vector. destruct (eim v e); [|apply mv_r_new; intros p; apply (mv_ret obj (mkR t p None))].
    cbv zeta. do 5 (apply mv_bind; [moving|intros ?]). apply mv_r_new. intros p. match goal with |- agree _ (ret ?o) _ => apply (mv_ret obj o) end.
  - intros o. apply mv_bind; [|intros _; apply mv_ret]. unfold for_int. moving.
Qed.
Lemma mv_r_length r : agree id_ (r_length r) (r_length (obj r)).
Proof.
  intros w w' R. unfold r_length. cbn [r_mem ren_obj]. rewrite (rel_blk _ _ R).
  destruct (hblk _ _) as [|[] cs|]; try stay. destruct (_ <=? _); stay.
Qed.
Lemma mv_assign_R x r : agree id_ (assign_R x r) (assign_R x (obj r)).
Proof.
  unfold assign_R, init_sexp, r_copy. change (r_is) with (fun t r => r_is t r).
  moving; try apply mv_r_length.
Qed.
Lemma mv_vec_wrap x r : agree id_ (vec_wrap x r) (vec_wrap x (obj r)).
Proof. unfold vec_wrap, sexp_wrap. moving; try apply mv_r_length. Qed.
Lemma mv_lifetime x m m' : agree (option_map obj) m m' -> agree (option_map obj) (lifetime x m) (lifetime x m').
Proof.
  intros Hm. set (k := fun o : outcome (option robj) => match o with Done (Some o) => bind (vec_end x) (fun _ => ret (Some o))
    | Thrown (Ass e) => bind (vec_end x) (fun _ => throw (Ass e)) | o => lift o end).
  apply (mv_ext _ (on_end m k) (on_end m' k)); [unfold k; ended|unfold k; ended|].
  apply (mv_try (option_map obj)); [exact Hm|].
  intros [[o|]|[e|]|u] o' E; destruct o'; cbn [same_end option_map] in E; try contradiction; subst; unfold k.
  - apply mv_bind; [moving|]. intros _. apply (mv_ret (option_map obj) (Some o)).
  - apply (mv_ret (option_map obj) None).
  - moving.
  - apply mv_throw.
  - apply mv_undef.
Qed.
Lemma mv_frun N lm b : agree (option_map obj) (frun N lm b) (frun N lm b).
Proof.
  induction b; cbn [frun]; try solve [moving; auto]; try solve [moving; apply mv_lifetime; auto].
  - apply mv_get. intros v v' R. norm R. apply mv_bind; [moving|]. intros e'. apply (mv_bind_r obj); [apply mv_cpp2R|]. intros o. apply (mv_ret (option_map obj) (Some o)).
  - apply mv_bind; [moving|]. intros []; [auto|]. apply (mv_ret (option_map obj) None).
Qed.
Lemma mv_unit {C} (r : C -> C) (m m' : M world unit) (f f' : M world C) : agree id_ m m' -> agree r f f' -> agree r (bind m (fun _ => f)) (bind m' (fun _ => f')).
Proof. intros; now apply mv_bind. Qed.
Lemma mv_call N lm ps b : agree (option_map obj) (call N lm ps b) (call N lm (map (ren_param pi) ps) b).
Proof.
  induction ps as [|p ps IH]; cbn [call map]; [apply mv_frun|]. apply mv_unit; [apply mv_vec_default|]. apply mv_lifetime.
  now apply mv_unit; [apply mv_assign_R|].
Qed.

Notation flw := (ren_flow pi).
Lemma mv_give f : agree flw (ret f) (ret (flw f)). Proof. apply (mv_ret flw). Qed.
Lemma mv_jscope x m m' : agree flw m m' -> agree flw (jscope x m) (jscope x m').
Proof.
  intros Hm. set (k := fun o : outcome flow => match o with Done More => ret More | Done f => bind (vec_end x) (fun _ => ret f)
    | Thrown (Ass e) => bind (vec_end x) (fun _ => throw (Ass e)) | o => lift o end).
  apply (mv_ext _ (on_end m k) (on_end m' k)); [unfold k; ended|unfold k; ended|].
  apply (mv_try flw); [exact Hm|].
  intros [[| | |o|]|[e|]|u] o' E; destruct o'; cbn [same_end ren_flow] in E; try contradiction; subst; unfold k;
    try (apply mv_bind; [solve [moving]|]; intros _; first [apply mv_throw|apply (mv_give Next)|apply (mv_give Broke)|apply (mv_give Again)|apply (mv_give (Gave o))]).
  - apply (mv_give More).
  - apply mv_throw.
  - apply mv_undef.
Qed.
Lemma mv_jthen p p' q q' : agree flw p p' -> agree flw q q' -> agree flw (jthen p q) (jthen p' q').
Proof.
  intros Hp Hq. unfold jthen. apply (mv_bind_r flw); [exact Hp|]. intros []; cbn [ren_flow]; auto;
    [apply (mv_give Broke)|apply (mv_give Again)|apply (mv_give (Gave o))|apply (mv_give More)].
Qed.
Lemma mv_jround f n n' : agree flw n n' -> agree flw (jround f n) (jround (flw f) n').
Proof. intros Hn. destruct f; cbn [jround ren_flow]; auto; [apply (mv_give Next)|apply (mv_give (Gave o))|apply (mv_give More)]. Qed.
Lemma mv_jrounds k c b : still c -> agree flw b b -> agree flw (jrounds k c b) (jrounds k c b).
Proof.
  intros Hc Hb. induction k as [|k IH]; cbn [jrounds]; [apply (mv_give More)|]. apply mv_bind; [exact Hc|]. intros []; [|apply (mv_give Next)].
  apply (mv_bind_r flw); [exact Hb|]. intros f. now apply mv_jround.
Qed.
Lemma mv_jeach vs b : (forall v, agree flw (b v) (b v)) -> agree flw (jeach vs b) (jeach vs b).
Proof.
  intros Hb. induction vs as [|v r IH]; cbn [jeach]; [apply (mv_give Next)|]. apply (mv_bind_r flw); [apply Hb|]. intros f. now apply mv_jround.
Qed.
Lemma mv_jrun N lm p : agree flw (jrun N lm p) (jrun N lm p).
Proof.
  induction p; cbn [jrun]; try solve [moving; auto]; try solve [moving; apply mv_jscope; auto].
  - apply mv_bind; [moving|]. intros []; [apply (mv_give Next)|apply (mv_give More)].
  - apply (mv_give Broke).
  - apply (mv_give Again).
  - apply mv_get. intros v v' R. norm R. apply mv_bind; [moving|]. intros e'. apply (mv_bind_r obj); [apply mv_cpp2R|]. intros o. apply (mv_give (Gave o)).
  - now apply mv_jthen.
  - apply mv_jrounds; [moving|auto].
  - apply mv_bind; [moving|]. intros v. apply mv_jscope. apply mv_bind; [moving|]. intros vs. now apply mv_jeach.
  - set (k := fun o : outcome flow => match o with Thrown (Ass _) => jrun N lm p2 | o => lift o end).
    apply (mv_ext _ (on_end (jrun N lm p1) k) (on_end (jrun N lm p1) k));
      try (intros w; unfold on_end, k; now destruct (jrun N lm p1 w) as [[y|[e|]|u] w1]).
    apply (mv_try flw); [exact IHp1|]. intros [f|[e|]|u] o' E; destruct o'; cbn [same_end] in E; try contradiction; subst; unfold k; auto;
      [apply mv_give|apply mv_throw|apply mv_undef].
Qed.
Lemma mv_jcall N lm ps b : agree flw (jcall N lm ps b) (jcall N lm (map (ren_param pi) ps) b).
Proof.
  induction ps as [|p ps IH]; cbn [jcall map]; [apply mv_jrun|]. apply mv_unit; [apply mv_vec_default|]. apply mv_jscope.
  now apply mv_unit; [apply mv_assign_R|].
Qed.
Lemma mv_wcall N lm ps b : agree flw (wcall N lm ps b) (wcall N lm (map (ren_wparam pi) ps) b).
Proof.
  induction ps as [|[[] p] ps IH]; cbn [wcall map ren_wparam w_how w_par]; [apply mv_jrun| |]; (apply mv_unit; [first [apply mv_vec_default|apply mv_vec_wrap]|]; apply mv_jscope).
  - now apply mv_unit; [apply mv_assign_R|].
  - exact IH.
Qed.
End Place.
