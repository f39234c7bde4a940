(** Memory no storage object points to is not touched by any call, whether it
    ends normally, by an exception or in undefined behaviour, and objects of
    [K] that own their elements go on doing so.  [P]: the block is to
    be looked at. *)
From Coq Require Import ZArith List String Bool Lia.
From Verif Require Import Base Num StoreModel VecModel SubsetModel AllocModel ProgModel LangModel OutModel ForeignModel CallModel.
Import ListNotations.
Open Scope Z_scope.
Local Notation length := List.length (only parsing).

Section Hide.
Variables (P : Prop) (K : oid -> Prop) (a : nat) (B : block).

Definition hid (w : world) : Prop :=
  (P -> hblk (hp w) a = B /\ (a < hnext (hp w))%nat) /\ (forall o, P -> ptr (ob w o) <> Some a) /\
  forall o, K o -> kd (ob w o) = KBuffer.
Definition hides {A} (m : M world A) : Prop := forall w, hid w -> hid (snd (m w)).

Lemma hides_bind {A C} (m : M world A) (f : A -> M world C) : hides m -> (forall x, hides (f x)) -> hides (bind m f).
Proof. intros Hm Hf w Hw. specialize (Hm w Hw). unfold bind. destruct (m w) as [[x|e|u] w1]; cbn [snd] in *; auto. now apply Hf. Qed.
Lemma hides_ret {A} (x : A) : hides (ret x). Proof. intros w H; exact H. Qed.
Lemma hides_throw {A} e : hides (A := A) (throw e). Proof. intros w H; exact H. Qed.
Lemma hides_undef {A} e : hides (A := A) (undef e). Proof. intros w H; exact H. Qed.
Lemma hides_lift {A} (x : outcome A) : hides (lift x). Proof. intros w H; exact H. Qed.
Lemma hides_ass b m : hides (ass b m). Proof. intros w H. unfold ass. now destruct b. Qed.
Lemma hides_get {A} (f : world -> M world A) : (forall v, (forall o, P -> ptr (ob v o) <> Some a) -> hides (f v)) -> hides (bind get f).
Proof. intros H w Hw. unfold bind, get. apply H; auto. apply Hw. Qed.
Lemma hides_st {A} o (f : store -> M world A) : (forall s, (P -> ptr s <> Some a) -> hides (f s)) -> hides (bind (st o) f).
Proof. intros H w Hw. unfold bind, st. apply H; auto. apply Hw. Qed.
Lemma hides_new {A} n (f : nat -> M world A) : (forall p, (P -> Some p <> Some a) -> hides (f p)) -> hides (bind (new_ n) f).
Proof.
  intros H w [H1 [H2 H3]]. unfold bind, new_. destruct (n <=? _); [|split; auto]. apply H; [intros p [= E]; specialize (H1 p); lia|].
  split; [|split; [exact H2|exact H3]]. intros p. destruct (H1 p) as [X Y]. cbn. split; [|lia].
  now replace (a =? _)%nat with false by (symmetry; apply Nat.eqb_neq; lia).
Qed.
Lemma hides_r_new {A} n (f : nat -> M world A) : (forall p, (P -> Some p <> Some a) -> hides (f p)) -> hides (bind (r_new n) f).
Proof.
  intros H w [H1 [H2 H3]]. unfold bind, r_new. destruct (n <=? _); [|split; auto]. apply H; [intros p [= E]; specialize (H1 p); lia|].
  split; [|split; [exact H2|exact H3]]. intros p. destruct (H1 p) as [X Y]. cbn. split; [|lia].
  now replace (a =? _)%nat with false by (symmetry; apply Nat.eqb_neq; lia).
Qed.
Lemma hid_blk w b c : hid w -> (P -> Some b <> Some a) -> hid (set_hp w (set_blk (hp w) b c)).
Proof.
  intros [H1 [H2 H3]] N. split; [|split; [exact H2|exact H3]]. intros p. specialize (N p). destruct (H1 p) as [X Y]. cbn.
  split; [|exact Y]. now replace (a =? b)%nat with false by (symmetry; apply Nat.eqb_neq; congruence).
Qed.
Lemma hides_del p : (P -> p <> Some a) -> hides (del p).
Proof. intros N w H. unfold del. destruct p as [b|]; auto. destruct (hblk _ b) as [|[] cs|]; auto. now apply hid_blk. Qed.
Lemma hides_wrc p i c : (P -> p <> Some a) -> hides (wrc p i c).
Proof. intros N w H. unfold wrc. destruct p as [b|]; auto. destruct (hblk _ b) as [|o cs|]; auto. destruct (_ && _); auto. now apply hid_blk. Qed.
Lemma hides_wr p i c : (P -> p <> Some a) -> hides (wr p i c).
Proof. apply hides_wrc. Qed.
Lemma hides_copy p q i : (P -> q <> Some a) -> hides (copy_cell p q i).
Proof. intros N w H. unfold copy_cell. destruct p as [b|]; auto. destruct (hblk _ b) as [|o cs|]; auto. destruct (_ && _); auto. now apply hides_wrc. Qed.
Lemma hides_rd p i : hides (rd p i).
Proof.
  intros w H. unfold rd. destruct p as [b|]; auto. destruct (hblk _ b) as [|o cs|]; auto. destruct (_ && _); auto.
  now destruct (nth _ _ _).
Qed.
Lemma hides_upd o f : (forall s, (P -> ptr s <> Some a) -> P -> ptr (f s) <> Some a) -> (forall s, (K o -> kd s = KBuffer) -> K o -> kd (f s) = KBuffer) ->
  hides (upd o f).
Proof.
  intros F G w [H1 [H2 H3]]. split; [exact H1|]. split; intros o' p; cbn.
  - destruct (oid_eqb o' o); [apply F; auto|auto].
  - destruct (oid_eqb o' o) eqn:E; [|auto].
    assert (o' = o) as -> by (destruct o', o; cbn in E; try discriminate; apply Nat.eqb_eq in E; congruence). apply G; auto.
Qed.
Lemma hides_forN n : forall i body, (forall k, hides (body k)) -> hides (forN n i body).
Proof. induction n as [|n IH]; intros i body Hb; cbn [forN]; [apply hides_ret|]. apply hides_bind; auto. Qed.
Lemma hides_for n body : (forall k, hides (body k)) -> hides (for_ n body).
Proof. apply hides_forN. Qed.

Lemma not_none : None <> Some a. Proof. discriminate. Qed.
Hint Resolve not_none : core.

Ltac hiding := repeat first
  [ assumption | discriminate
  | simple apply hides_ret | simple apply hides_throw | simple apply hides_undef | simple apply hides_lift | simple apply hides_ass
  | simple apply hides_get; intros ? ? | simple apply hides_st; intros ? ? | simple apply hides_new; intros ? ? | simple apply hides_r_new; intros ? ?
  | simple apply hides_rd
  | simple apply hides_wr | simple apply hides_wrc | simple apply hides_del | simple apply hides_copy
  | simple apply hides_upd; intros ? ? ?; cbn [ptr kd with_ptr with_sz with_cap with_alloc with_mp with_todel store_default]; [|solve [auto]]
  | simple apply hides_for; intro | simple apply hides_forN; intro
  | solve [auto 3 with hide]
  | simple apply hides_bind; [|intro]
  | match goal with
    | H : forall o, P -> ptr (ob ?v o) <> Some a |- P -> ptr (ob ?v _) <> Some a => apply H
    | H : forall o, P -> ptr (ob ?v o) <> Some a |- ptr (ob ?v _) <> Some a => now apply H
    | H : P -> ?x <> Some a |- ?x <> Some a => now apply H
    | |- P -> None <> Some a => discriminate
    | |- hides (if ?b then _ else _) => destruct b
    | |- hides (match ?k with KBuffer => _ | KBorrow => _ | KBorrowSEXP => _ end) => destruct k
    | |- hides (match ?k with Some _ => _ | None => _ end) => destruct k eqn:?
    | |- hides (match ?v with VB _ => _ | VI _ => _ | VD _ => _ end) => destruct v
    | |- hides (match ?v with AS _ => _ | AV _ _ => _ end) => destruct v
    end ].

Lemma hides_fill x v : hides (fill x v). Proof. unfold fill. hiding. Qed.
Hint Resolve hides_fill : hide.
Lemma hides_init x n : hides (init x n). Proof. unfold init. hiding. Qed.
Hint Resolve hides_init : hide.
Lemma hides_resize x n : hides (resize x n). Proof. unfold resize. hiding. Qed.
Lemma hides_sexp_init x n : hides (sexp_init x n). Proof. unfold sexp_init. hiding. Qed.
Hint Resolve hides_resize hides_sexp_init : hide.
Lemma hides_sexp_resize x n : hides (sexp_resize x n). Proof. unfold sexp_resize. hiding. Qed.
Lemma hides_borrow_resize x n : hides (borrow_resize x n). Proof. unfold borrow_resize. hiding. Qed.
Hint Resolve hides_sexp_resize hides_borrow_resize : hide.
Lemma hides_any_resize x n : hides (any_resize x n). Proof. unfold any_resize. hiding. Qed.
Lemma hides_get_at x i : hides (get_at x i). Proof. unfold get_at. hiding. Qed.
Lemma hides_set_at x i v : hides (set_at x i v). Proof. unfold set_at. hiding. Qed.
Lemma hides_sexp_get_at x i : hides (sexp_get_at x i). Proof. unfold sexp_get_at. hiding. Qed.
Lemma hides_sexp_set_at x i v : hides (sexp_set_at x i v). Proof. unfold sexp_set_at. hiding. Qed.
Hint Resolve hides_any_resize hides_get_at hides_set_at hides_sexp_get_at hides_sexp_set_at : hide.
Lemma hides_at_rd x i : hides (at_rd x i). Proof. unfold at_rd. hiding. Qed.
Lemma hides_at_wr x i v : hides (at_wr x i v). Proof. unfold at_wr. hiding. Qed.
Hint Resolve hides_at_rd hides_at_wr : hide.
Lemma hides_moveit x y : hides (moveit x y). Proof. unfold moveit. hiding. Qed.
Lemma hides_sexp_moveit x y : hides (sexp_moveit x y). Proof. unfold sexp_moveit. hiding. Qed.
Lemma hides_destroy x : hides (destroy x). Proof. unfold destroy. hiding. Qed.
Lemma hides_sexp_destroy x : hides (sexp_destroy x). Proof. unfold sexp_destroy. hiding. Qed.
Hint Resolve hides_moveit hides_sexp_moveit hides_destroy hides_sexp_destroy : hide.
Lemma hides_any_destroy x : hides (any_destroy x). Proof. unfold any_destroy. hiding. Qed.
Hint Resolve hides_any_destroy : hide.
Lemma hides_elem lm e : forall i, hides (elem lm e i).
Proof. induction e; intros i; cbn [elem]; hiding; auto. Qed.
Hint Resolve hides_elem : hide.
Lemma hides_take_shape x e : hides (take_shape x e). Proof. unfold take_shape. hiding. Qed.
Lemma hides_fill_temp lm x t e n : hides (fill_temp lm x t e n). Proof. unfold fill_temp. hiding. Qed.
Hint Resolve hides_take_shape hides_fill_temp : hide.
Lemma hides_assign lm x e : hides (assign lm x e).
Proof. unfold assign, assign_buffer, assign_borrow, assign_sexp. hiding. Qed.
Lemma hides_assign_scalar x v : hides (assign_scalar x v). Proof. unfold assign_scalar. hiding. Qed.
Lemma hides_sub_wr x ind i v : hides (sub_wr x ind i v). Proof. unfold sub_wr. hiding. Qed.
Lemma hides_ctor_default x t : hides (ctor_default x t). Proof. unfold ctor_default. hiding. Qed.
Hint Resolve hides_assign hides_assign_scalar hides_sub_wr hides_ctor_default : hide.
Lemma hides_scoped {A} x (m : M world A) : hides m -> hides (scoped x m).
Proof.
  intros Hm w H. specialize (Hm w H). unfold scoped. destruct (m w) as [[y|e|u] w1]; cbn [snd] in Hm; auto.
  - assert (Kp : hides (bind (any_destroy x) (fun _ => ret y))) by hiding. now apply Kp.
  - assert (Kp : hides (bind (any_destroy x) (fun _ => throw (A := A) e))) by hiding. now apply Kp.
Qed.
Lemma hides_assign_subset lm s x ind same e : hides (assign_subset lm s x ind same e).
Proof. unfold assign_subset. cbv zeta. hiding. apply hides_scoped. hiding. Qed.
Lemma hides_assign_subset_scalar x ind v : hides (assign_subset_scalar x ind v).
Proof. unfold assign_subset_scalar. hiding. Qed.
Hint Resolve hides_assign_subset hides_assign_subset_scalar : hide.

Lemma hides_ctor_size x t n : hides (ctor_size x t n). Proof. unfold ctor_size. hiding. Qed.
Hint Resolve hides_ctor_size : hide.
Lemma hides_vec_sized x t n : hides (vec_sized x t n). Proof. unfold vec_sized. hiding. Qed.
Lemma hides_vec_default x t : hides (vec_default x t). Proof. unfold vec_default. hiding. Qed.
Hint Resolve hides_vec_sized hides_vec_default : hide.
Lemma hides_vec_matrix x t r c : hides (vec_matrix x t r c). Proof. unfold vec_matrix. hiding. Qed.
Lemma hides_vec_destroy x : hides (vec_destroy x). Proof. unfold vec_destroy. hiding. Qed.
Hint Resolve hides_vec_matrix hides_vec_destroy : hide.
Lemma hides_vec_end x : hides (vec_end x). Proof. unfold vec_end. hiding. Qed.
Hint Resolve hides_vec_end : hide.
Lemma hides_catch {A} (m : M world A) (h : exn -> M world A) : hides m -> (forall e, hides (h e)) ->
  hides (fun w => match m w with (Thrown e, w1) => h e w1 | r => r end).
Proof. intros Hm Hh w H. specialize (Hm w H). destruct (m w) as [[y|e|u] w1]; cbn [snd] in Hm; auto. now apply Hh. Qed.
Lemma hides_built x m : hides m -> hides (built x m).
Proof. intros Hm. unfold built. apply (hides_catch m (fun e => bind (vec_end x) (fun _ => throw e))); auto. intros e. hiding. Qed.
Hint Resolve hides_built : hide.
Lemma hides_vec_of_expr lm x t e : hides (vec_of_expr lm x t e).
Proof.
  unfold vec_of_expr. cbv zeta. hiding.
  apply (hides_catch (bind (if 0 <? esize v e then resize (OD x) (esize v e) else upd (OD x) (with_sz (esize v e)))
    (fun _ => bind (fill_temp lm (OD x) t e (esize v e)) (fun _ => take_shape (OD x) e)))
    (fun ex => bind (any_destroy (OD x)) (fun _ => throw ex))); [hiding|intros ex; hiding].
Qed.
Lemma hides_vec_steal x s t : hides (vec_steal x s t). Proof. unfold vec_steal, ctor_steal. hiding. Qed.
Hint Resolve hides_vec_of_expr hides_vec_steal : hide.

(* ------------------------------------------------------------------ makers *)

Lemma hides_arg_first lm x : hides (arg_first lm x). Proof. unfold arg_first. hiding. Qed.
Lemma hides_create_rvec x t v : hides (create_rvec x t v). Proof. unfold create_rvec. hiding. Qed.
Hint Resolve hides_arg_first hides_create_rvec : hide.
Lemma hides_vector_fn lm x t v : hides (vector_fn lm x t v). Proof. unfold vector_fn. hiding. Qed.
Lemma hides_rep_loop lm x t e n : forall i c, hides (rep_loop lm x t e n i c).
Proof. induction n as [|n IH]; intros i c; cbn [rep_loop]; hiding; apply IH. Qed.
Hint Resolve hides_vector_fn hides_rep_loop : hide.
Lemma hides_rep_fn lm x i t : hides (rep_fn lm x i t). Proof. unfold rep_fn. cbv zeta. hiding. Qed.
Lemma hides_fill_expr lm o e : hides (fill_expr lm o e). Proof. unfold fill_expr. hiding. Qed.
Hint Resolve hides_rep_fn hides_fill_expr : hide.
Lemma hides_matrix_fn lm x i r c : hides (matrix_fn lm x i r c).
Proof. unfold matrix_fn. hiding; try (apply hides_built; hiding). Qed.
Lemma hides_count_loop {A} x (go : A -> bool) put next n : forall s c, hides (count_loop x go put next n s c).
Proof. induction n as [|n IH]; intros s c; cbn [count_loop]; hiding; apply IH. Qed.
Hint Resolve hides_matrix_fn hides_count_loop : hide.
Lemma hides_colon_int x p q : hides (colon_int x p q). Proof. unfold colon_int. cbv zeta. hiding; try (apply hides_built; hiding). Qed.
Lemma hides_colon_dbl x p q : hides (colon_dbl x p q). Proof. unfold colon_dbl. cbv zeta. hiding; try (apply hides_built; hiding). Qed.
Hint Resolve hides_colon_int hides_colon_dbl : hide.
Lemma hides_colon_fn lm x p q : hides (colon_fn lm x p q).
Proof. unfold colon_fn. cbv zeta. hiding. Qed.
Lemma hides_coca_fill lm x t args : forall i, hides (coca_fill lm x t args i).
Proof. induction args as [|[v|t' e] r IH]; intros i; cbn [coca_fill]; hiding; apply IH. Qed.
Hint Resolve hides_colon_fn hides_coca_fill : hide.
Lemma hides_coca_fn lm x args : hides (coca_fn lm x args). Proof. unfold coca_fn. cbv zeta. hiding. Qed.
Lemma hides_test_fn lm p x e : hides (test_fn lm p x e). Proof. unfold test_fn. hiding; try (apply hides_built; hiding). Qed.
Lemma hides_dim_fn x e : hides (dim_fn x e). Proof. unfold dim_fn. hiding; try (apply hides_built; hiding). Qed.
Hint Resolve hides_coca_fn hides_test_fn hides_dim_fn : hide.
Lemma hides_lmake lm s m : hides (lmake lm s m).
Proof. unfold lmake. apply hides_get. intros v _. destruct m; hiding. Qed.
Hint Resolve hides_lmake : hide.

(* ---------------------------------------------------------------- programs *)

Lemma hides_lcondition lm c : hides (lcondition lm c). Proof. unfold lcondition, to_scalar, vat. hiding. Qed.
Lemma hides_walk p n : forall i, hides (walk p i n).
Proof. induction n as [|n IH]; intros i; cbn [walk]; hiding; apply IH. Qed.
Hint Resolve hides_lcondition hides_walk : hide.
Lemma hides_iterate x : hides (iterate_vec x). Proof. unfold iterate_vec. hiding. Qed.
Hint Resolve hides_iterate : hide.
Lemma hides_lscope x m : hides m -> hides (lscope x m).
Proof.
  intros Hm w H. specialize (Hm w H). unfold lscope. destruct (m w) as [[[]|[e|]|u] w1]; cbn [snd] in Hm; auto.
  - assert (Kp : hides (bind (vec_end x) (fun _ => ret true))) by hiding. now apply Kp.
  - assert (Kp : hides (bind (vec_end x) (fun _ => throw (A := bool) (Ass e)))) by hiding. now apply Kp.
Qed.
Lemma hides_lifetime x m : hides m -> hides (lifetime x m).
Proof.
  intros Hm w H. specialize (Hm w H). unfold lifetime. destruct (m w) as [[[o|]|[e|]|u] w1]; cbn [snd] in Hm; auto.
  - assert (Kp : hides (bind (vec_end x) (fun _ => ret (Some o)))) by hiding. now apply Kp.
  - assert (Kp : hides (bind (vec_end x) (fun _ => throw (A := option robj) (Ass e)))) by hiding. now apply Kp.
Qed.
Lemma hides_andthen p q : hides p -> hides q -> hides (andthen p q). Proof. intros; unfold andthen. hiding. Qed.
Lemma hides_rounds k c b : hides c -> hides b -> hides (rounds_of k c b).
Proof. intros Hc Hb. induction k as [|k IH]; cbn [rounds_of]; hiding. now apply hides_andthen. Qed.
Lemma hides_each vs b : (forall v, hides (b v)) -> hides (each vs b).
Proof. intros Hb. induction vs as [|v r IH]; cbn [each]; hiding. now apply hides_andthen. Qed.
Lemma hides_at_vec_set x i v : hides (at_vec_set x i v). Proof. unfold at_vec_set. hiding. Qed.
Lemma hides_at_mat_set x i j v : hides (at_mat_set x i j v). Proof. unfold at_mat_set. hiding. Qed.
Hint Resolve hides_at_vec_set hides_at_mat_set hides_lscope : hide.

Lemma hides_lrun N lm p : hides (lrun N lm p).
Proof.
  induction p; cbn [lrun]; try solve [hiding]; try solve [hiding; apply hides_lscope; hiding; auto].
  - now apply hides_andthen.
  - apply hides_rounds; hiding.
  - apply hides_bind; [hiding|]. intros v. apply hides_lscope. apply hides_bind; [hiding|]. intros vs. now apply hides_each.
  - intros w H. specialize (IHp1 w H). destruct (lrun N lm p1 w) as [[y|[e|]|u] w1]; cbn [snd] in IHp1; auto.
Qed.

Lemma hides_cpp2R lm t e : hides (cpp2R lm t e).
Proof.
  unfold cpp2R. apply hides_get. intros v _.
  assert (Kp : forall m : M world robj, (forall (f : robj -> M world robj), (forall o, (P -> Some (r_mem o) <> Some a) -> hides (f o)) -> hides (bind m f)) ->
    hides (bind m (fun o => bind (for_int (esize v e) (fun i => bind (elem lm e i) (fun v => bind (lift (cast (r_cell t) v)) (fun v' => wr (Some (r_mem o)) i v')))) (fun _ => ret o)))).
  { intros m H. apply H. intros o No. unfold for_int. hiding. }
  destruct (eim v e).
  - apply Kp. intros f Hf. unfold r_matrix. intros w H. unfold bind at 1. cbv zeta.
    match goal with |- hid (snd (match ?m w with _ => _ end)) => assert (G : hides (bind m f)) end; [|now apply (G w H)].
    intros w' H'. assert (E : forall nr nc, hides (bind (bind (ass ((0 <=? to_int nr) && (0 <=? to_int nc)) "negative extents to matrix")
      (fun _ => bind (ass (to_int nr * to_int nc <=? int_max) "allocMatrix: too many elements specified")
      (fun _ => bind (r_new (to_int nr * to_int nc)) (fun p => ret (mkR t p (Some (to_int nr, to_int nc))))))) f)).
    { intros nr nc u Hu. unfold bind at 1 2 3, ass. destruct (_ && _); [|exact Hu]. cbn [ret throw]. destruct (_ <=? int_max); [|exact Hu]. cbn [ret throw].
      assert (Q : hides (bind (r_new (to_int nr * to_int nc)) (fun p => f (mkR t p (Some (to_int nr, to_int nc)))))).
      { apply hides_r_new. intros p Np. apply Hf. exact Np. }
      specialize (Q u Hu). unfold bind in Q |- *. destruct (r_new _ u) as [[p| |] u1]; exact Q. }
    unfold bind at 1 2, lift. destruct (edim rows v e) as [nr| |]; auto. unfold bind at 1. destruct (edim cols v e) as [nc| |]; auto.
    unfold bind at 1, ass at 1. destruct (esize v e =? _); [|exact H']. cbn [ret throw]. apply (E nr nc w' H').
  - apply Kp. intros f Hf. unfold r_vector. intros w H.
    assert (Q : hides (bind (r_new (esize v e)) (fun p => f (mkR t p None)))) by (apply hides_r_new; intros p Np; now apply Hf).
    specialize (Q w H). unfold bind in Q |- *. destruct (r_new _ w) as [[p| |] w1]; exact Q.
Qed.
Hint Resolve hides_cpp2R hides_lrun : hide.

Lemma hides_frun N lm b : hides (frun N lm b).
Proof.
  induction b; cbn [frun]; try solve [hiding]; try solve [hiding; now apply hides_lifetime].
Qed.

Lemma hides_assign_R x r : hides (assign_R x r).
Proof.
  unfold assign_R, init_sexp, r_copy.
  assert (L : hides (r_length r)).
  { intros w H. unfold r_length. destruct (hblk _ _) as [|[] cs|]; auto. now destruct (_ <=? _). }
  hiding.
Qed.
Hint Resolve hides_assign_R : hide.

Lemma hides_call N lm ps b : hides (call N lm ps b).
Proof.
  induction ps as [|p ps IH]; cbn [call]; [apply hides_frun|].
  apply hides_bind; [hiding|]. intros _. apply hides_lifetime. hiding.
Qed.
End Hide.
