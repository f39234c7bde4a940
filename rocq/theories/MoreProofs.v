(** More memory changes nothing but whether there is enough: what a computation
    does with some limit it also does with a larger one, unless it has been
    ended by std::bad_alloc. *)
From Coq Require Import ZArith List String Bool Lia FunctionalExtensionality.
From Verif Require Import Base Num StoreModel VecModel SubsetModel AllocModel ProgModel LangModel OutModel ForeignModel CallModel JumpModel WrapCallModel SpecMore.
Import ListNotations.
Open Scope Z_scope.
Local Notation length := List.length (only parsing).

(** [P]: may m ask for memory? *)
Definition agree {A} (P : Prop) (m m' : M world A) : Prop := forall w L, hlim (hp w) <= L ->
  hlim (hp (snd (m w))) = hlim (hp w) /\
  ((P /\ ~ finished (fst (m w))) \/ m' (with_limit L w) = (fst (m w), with_limit L (snd (m w)))).
Definition grows_at {A} (P : Prop) (m : M world A) : Prop := agree P m m.
Definition grows {A} (m : M world A) : Prop := forall P : Prop, P -> grows_at P m.
Definition reads {A} (m : M world A) : Prop := forall P : Prop, grows_at P m.

Ltac stay := split; [reflexivity|right; reflexivity].
Lemma grows_bind {A C} (P : Prop) (m : M world A) (f : A -> M world C) : grows_at P m -> (forall x, grows_at P (f x)) -> grows_at P (bind m f).
Proof.
  intros Hm Hf w L LE. destruct (Hm w L LE) as [Q [[p B]|E]]; unfold bind.
  - destruct (m w) as [[x|e|u] w1]; cbn [fst snd] in *; [elim B; exact I| |]; auto.
  - rewrite E. destruct (m w) as [[x|e|u] w1]; cbn [fst snd] in *; auto.
    rewrite <- Q. apply (Hf x w1 L). now rewrite Q.
Qed.
Lemma grows_ret {A} (P : Prop) (x : A) : grows_at P (ret x). Proof. intros w L LE. stay. Qed.
Lemma grows_throw {A} (P : Prop) e : grows_at (A := A) P (throw e). Proof. intros w L LE. stay. Qed.
Lemma grows_undef {A} (P : Prop) e : grows_at (A := A) P (undef e). Proof. intros w L LE. stay. Qed.
Lemma grows_lift {A} (P : Prop) (x : outcome A) : grows_at P (lift x). Proof. intros w L LE. stay. Qed.
Lemma grows_ass (P : Prop) b m : grows_at P (ass b m). Proof. intros w L LE. unfold ass. destruct b; stay. Qed.
Definition rel (w w' : world) : Prop := exists L, hlim (hp w) <= L /\ w' = with_limit L w.
Lemma grows_get {A} (P : Prop) (f : world -> M world A) : (forall v v', rel v v' -> agree P (f v) (f v')) -> grows_at P (bind get f).
Proof. intros H w L LE. unfold bind, get. apply (H w (with_limit L w)); [now exists L; split|exact LE]. Qed.
Lemma rel_ob v v' : rel v v' -> ob v' = ob v. Proof. now intros [L [_ ->]]. Qed.
Lemma grows_st (P : Prop) o : grows_at P (st o). Proof. intros w L LE. stay. Qed.
Lemma grows_upd (P : Prop) o f : grows_at P (upd o f). Proof. intros w L LE. stay. Qed.
Lemma grows_new (P : Prop) n : P -> grows_at P (new_ n).
Proof.
  intros p w L LE. unfold new_. cbn [hp with_limit hlim]. destruct (Z.leb_spec n (hlim (hp w))).
  - destruct (Z.leb_spec n L); [|lia]. split; [reflexivity|]. right. reflexivity.
  - split; [reflexivity|]. left. split; [exact p|exact (fun f => f)].
Qed.
Lemma grows_r_new (P : Prop) n : P -> grows_at P (r_new n).
Proof.
  intros p w L LE. unfold r_new. cbn [hp with_limit hlim]. destruct (Z.leb_spec n (hlim (hp w))).
  - destruct (Z.leb_spec n L); [|lia]. split; [reflexivity|]. right. reflexivity.
  - split; [reflexivity|]. left. split; [exact p|exact (fun f => f)].
Qed.
Lemma grows_del (P : Prop) p : grows_at P (del p).
Proof. intros w L LE. unfold del. cbn [hp with_limit hblk]. destruct p as [b|]; [|stay]. destruct (hblk _ b) as [|[] cs|]; stay. Qed.
Lemma grows_wrc (P : Prop) p i c : grows_at P (wrc p i c).
Proof. intros w L LE. unfold wrc. cbn [hp with_limit hblk]. destruct p as [b|]; [|stay]. destruct (hblk _ b) as [|o cs|]; try stay. destruct (_ && _); stay. Qed.
Lemma grows_wr (P : Prop) p i c : grows_at P (wr p i c). Proof. apply grows_wrc. Qed.
Lemma grows_copy (P : Prop) p q i : grows_at P (copy_cell p q i).
Proof.
  intros w L LE. unfold copy_cell. cbn [hp with_limit hblk]. destruct p as [b|]; [|stay]. destruct (hblk _ b) as [|o cs|]; try stay.
  destruct (_ && _); [|stay]. now apply (grows_wrc P).
Qed.
Lemma grows_rd (P : Prop) p i : grows_at P (rd p i).
Proof.
  intros w L LE. unfold rd. cbn [hp with_limit hblk]. destruct p as [b|]; [|stay]. destruct (hblk _ b) as [|o cs|]; try stay.
  destruct (_ && _); [|stay]. destruct (nth _ _ _); stay.
Qed.
Lemma grows_forN (P : Prop) n : forall i body, (forall k, grows_at P (body k)) -> grows_at P (forN n i body).
Proof. induction n as [|n IH]; intros i body Hb; cbn [forN]; [apply grows_ret|]. apply grows_bind; auto. Qed.
Lemma grows_for (P : Prop) n body : (forall k, grows_at P (body k)) -> grows_at P (for_ n body).
Proof. apply grows_forN. Qed.
Lemma reads_use {A} (m : M world A) w w' : reads m -> rel w w' -> fst (m w') = fst (m w).
Proof. intros H [L [LE ->]]. destruct (H False w L LE) as [_ [[[] _]|E]]. now rewrite E. Qed.
Create HintDb grows.

Lemma r_esize v v' : rel v v' -> esize v' = esize v.
Proof. intros R. apply functional_extensionality. intros e. induction e; cbn [esize]; auto; [now rewrite (rel_ob _ _ R)|now rewrite IHe1, IHe2]. Qed.
Lemma r_eim v v' : rel v v' -> eim v' = eim v.
Proof. intros R. apply functional_extensionality. intros e. induction e; cbn [eim]; rewrite ?(rel_ob _ _ R), ?IHe, ?IHe1, ?IHe2; reflexivity. Qed.
Lemma r_edim v v' : rel v v' -> forall p, edim p v' = edim p v.
Proof.
  intros R p. apply functional_extensionality. intros e. induction e; cbn [edim]; rewrite ?(rel_ob _ _ R), ?(r_eim _ _ R); auto.
  now rewrite IHe1, IHe2.
Qed.

Ltac norm R := rewrite ?(r_esize _ _ R), ?(r_eim _ _ R), ?(r_edim _ _ R), ?(rel_ob _ _ R).
Ltac growing := intros; repeat first
  [ assumption | discriminate
  | match goal with |- grows _ => intros ? ? end
  | match goal with |- reads _ => intros ? end
  | simple apply grows_ret | simple apply grows_throw | simple apply grows_undef | simple apply grows_lift | simple apply grows_ass
  | simple apply grows_get; let v := fresh "v" in let v' := fresh "v'" in let R := fresh "R" in intros v v' R; norm R;
      match goal with |- agree ?K ?m ?m => change (grows_at K m) end; try clear v' R
  | simple apply grows_st | simple apply grows_new; assumption | simple apply grows_r_new; assumption | simple apply grows_rd
  | simple apply grows_wr | simple apply grows_wrc | simple apply grows_del | simple apply grows_copy | simple apply grows_upd
  | simple apply grows_for; intro | simple apply grows_forN; intro
  | match goal with |- grows_at ?K ?m => assert (reads m) by (solve [auto 3 with grows]); auto end
  | match goal with |- grows_at ?K ?m => assert (grows m) by (solve [auto 3 with grows]); auto end
  | simple apply grows_bind; [|intro]
  | match goal with
    | |- grows_at _ (if ?b then _ else _) => destruct b
    | |- grows_at _ (match ?k with KBuffer => _ | KBorrow => _ | KBorrowSEXP => _ end) => destruct k
    | |- grows_at _ (match ?k with Some _ => _ | None => _ end) => destruct k eqn:?
    | |- grows_at _ (match ?v with VB _ => _ | VI _ => _ | VD _ => _ end) => destruct v
    | |- grows_at _ (match ?v with AS _ => _ | AV _ _ => _ end) => destruct v
    end ].

Lemma grows_fill x v : grows (fill x v). Proof. unfold fill. growing. Qed.
#[local] Hint Resolve grows_fill : grows.
Lemma grows_init x n : grows (init x n). Proof. unfold init. growing. Qed.
#[local] Hint Resolve grows_init : grows.
Lemma grows_resize x n : grows (resize x n). Proof. unfold resize. growing. Qed.
Lemma grows_sexp_init x n : grows (sexp_init x n). Proof. unfold sexp_init. growing. Qed.
#[local] Hint Resolve grows_resize grows_sexp_init : grows.
Lemma grows_sexp_resize x n : grows (sexp_resize x n). Proof. unfold sexp_resize. growing. Qed.
Lemma grows_borrow_resize x n : grows (borrow_resize x n). Proof. unfold borrow_resize. growing. Qed.
#[local] Hint Resolve grows_sexp_resize grows_borrow_resize : grows.
Lemma grows_any_resize x n : grows (any_resize x n). Proof. unfold any_resize. growing. Qed.
Lemma grows_get_at x i : reads (get_at x i). Proof. unfold get_at. growing. Qed.
Lemma grows_set_at x i v : grows (set_at x i v). Proof. unfold set_at. growing. Qed.
Lemma grows_sexp_get_at x i : reads (sexp_get_at x i). Proof. unfold sexp_get_at. growing. Qed.
Lemma grows_sexp_set_at x i v : grows (sexp_set_at x i v). Proof. unfold sexp_set_at. growing. Qed.
#[local] Hint Resolve grows_any_resize grows_get_at grows_set_at grows_sexp_get_at grows_sexp_set_at : grows.
Lemma grows_at_rd x i : reads (at_rd x i). Proof. unfold at_rd. growing. Qed.
Lemma grows_at_wr x i v : grows (at_wr x i v). Proof. unfold at_wr. growing. Qed.
#[local] Hint Resolve grows_at_rd grows_at_wr : grows.
Lemma grows_moveit x y : grows (moveit x y). Proof. unfold moveit. growing. Qed.
Lemma grows_sexp_moveit x y : grows (sexp_moveit x y). Proof. unfold sexp_moveit. growing. Qed.
Lemma grows_destroy x : grows (destroy x). Proof. unfold destroy. growing. Qed.
Lemma grows_sexp_destroy x : grows (sexp_destroy x). Proof. unfold sexp_destroy. growing. Qed.
#[local] Hint Resolve grows_moveit grows_sexp_moveit grows_destroy grows_sexp_destroy : grows.
Lemma grows_any_destroy x : grows (any_destroy x). Proof. unfold any_destroy. growing. Qed.
#[local] Hint Resolve grows_any_destroy : grows.
Lemma grows_elem lm e : forall i, reads (elem lm e i).
Proof. induction e; intros i; cbn [elem]; growing; auto. Qed.
#[local] Hint Resolve grows_elem : grows.
Lemma grows_take_shape x e : grows (take_shape x e). Proof. unfold take_shape. growing. Qed.
Lemma grows_fill_temp lm x t e n : grows (fill_temp lm x t e n). Proof. unfold fill_temp. growing. Qed.
#[local] Hint Resolve grows_take_shape grows_fill_temp : grows.
Lemma grows_assign lm x e : grows (assign lm x e).
Proof. unfold assign, assign_buffer, assign_borrow, assign_sexp. growing. Qed.
Lemma grows_assign_scalar x v : grows (assign_scalar x v). Proof. unfold assign_scalar. growing. Qed.
Lemma grows_sub_wr x ind i v : grows (sub_wr x ind i v). Proof. unfold sub_wr. growing. Qed.
Lemma grows_ctor_default x t : grows (ctor_default x t). Proof. unfold ctor_default. growing. Qed.
#[local] Hint Resolve grows_assign grows_assign_scalar grows_sub_wr grows_ctor_default : grows.

Lemma r_len v v' : rel v v' -> length_fn v' = length_fn v.
Proof. intros R. apply functional_extensionality. intros [u|t e]; cbn; [reflexivity|now rewrite (r_esize _ _ R)]. Qed.
Lemma r_coca_size v v' : rel v v' -> coca_size v' = coca_size v.
Proof.
  intros R. apply functional_extensionality. intros l. apply functional_extensionality. induction l as [|[u|t e] l IH]; intros n; cbn [coca_size]; auto.
  - destruct (int_res _); cbn; auto.
  - now rewrite (r_esize _ _ R), IH.
Qed.
Lemma r_at_pos v v' : rel v v' -> at_pos v' = at_pos v.
Proof. intros R. unfold at_pos. now rewrite (rel_ob _ _ R). Qed.
Lemma r_at_mat_pos v v' : rel v v' -> at_mat_pos v' = at_mat_pos v.
Proof. intros R. unfold at_mat_pos. now rewrite (rel_ob _ _ R). Qed.
Lemma r_emp v v' : rel v v' -> emp v' = emp v.
Proof. intros R. unfold emp. now rewrite (rel_ob _ _ R). Qed.
Lemma r_idx_at lm v v' : rel v v' -> idx_at lm v' = idx_at lm v.
Proof.
  intros R. apply functional_extensionality. intros t. apply functional_extensionality. intros e. apply functional_extensionality. intros i.
  unfold idx_at. now rewrite (reads_use _ v v' (grows_elem lm e i) R).
Qed.
Lemma r_ind_vector lm v v' : rel v v' -> calc_ind_vector lm v' = calc_ind_vector lm v.
Proof. intros R. unfold calc_ind_vector. now rewrite (r_idx_at lm v v' R), (r_esize v v' R). Qed.
Lemma r_ind_matrix lm v v' : rel v v' -> calc_ind_matrix lm v' = calc_ind_matrix lm v.
Proof.
  intros R. unfold calc_ind_matrix, int_rows, int_cols, all_before, all_less1, less1_at, mask_ones, mask_rec, mask_own.
  now rewrite (r_idx_at lm v v' R), (r_esize v v' R), (r_eim v v' R), !(r_edim v v' R), (r_emp v v' R).
Qed.
Lemma r_subset_vec lm v v' : rel v v' -> subset_vec lm v' = subset_vec lm v.
Proof. intros R. unfold subset_vec, calc_ind_vector. now rewrite (r_idx_at lm v v' R), (r_esize v v' R). Qed.
Lemma r_subset_mat lm v v' : rel v v' -> subset_mat lm v' = subset_mat lm v.
Proof.
  intros R. unfold subset_mat, calc_ind_matrix, int_rows, int_cols, all_before, all_less1, less1_at, mask_ones, mask_rec, mask_own.
  now rewrite (r_idx_at lm v v' R), (r_esize v v' R), (r_eim v v' R), !(r_edim v v' R), (r_emp v v' R).
Qed.
Ltac norm R ::= rewrite ?(r_esize _ _ R), ?(r_eim _ _ R), ?(r_edim _ _ R), ?(r_len _ _ R), ?(r_coca_size _ _ R),
  ?(r_at_pos _ _ R), ?(r_at_mat_pos _ _ R), ?(rel_ob _ _ R).
Lemma grows_at_vec x i : reads (at_vec x i). Proof. unfold at_vec. growing. Qed.
Lemma grows_at_mat x i j : reads (at_mat x i j). Proof. unfold at_mat. growing. Qed.
Lemma grows_at_expr lm e i : reads (at_expr lm e i). Proof. unfold at_expr, vat. growing. Qed.
Lemma grows_at_mat_expr lm e i j : reads (at_mat_expr lm e i j). Proof. unfold at_mat_expr, vat. cbv zeta. growing. Qed.
Scheme lexpr_mut := Induction for lexpr Sort Prop with lindex_mut := Induction for lindex Sort Prop.
Lemma r_lbuild_both lm v v' : rel v v' -> forall e, lbuild lm v' e = lbuild lm v e.
Proof.
  intros R. apply (lexpr_mut (fun e => lbuild lm v' e = lbuild lm v e) (fun i => lbuild_index lm v' i = lbuild_index lm v i));
    intros; cbn [lbuild lbuild_index];
    rewrite ?H, ?H0, ?H1, ?(r_subset_vec lm v v' R), ?(r_subset_mat lm v v' R), ?(reads_use _ v v' (grows_at_vec _ _) R), ?(reads_use _ v v' (grows_at_mat _ _ _) R); auto.
  - destruct (lbuild lm v e); cbn [obind]; auto. now rewrite (reads_use _ v v' (grows_at_expr lm _ _) R).
  - destruct (lbuild lm v e); cbn [obind]; auto. now rewrite (reads_use _ v v' (grows_at_mat_expr lm _ _ _) R).
  - now rewrite (r_esize v v' R).
Qed.
Lemma r_lbuild lm v v' : rel v v' -> lbuild lm v' = lbuild lm v.
Proof. intros R. apply functional_extensionality. now apply r_lbuild_both. Qed.
Lemma r_lbuild_index lm v v' : rel v v' -> lbuild_index lm v' = lbuild_index lm v.
Proof. intros R. apply functional_extensionality. intros []; cbn [lbuild_index]; auto. now rewrite (r_lbuild lm v v' R). Qed.
Lemma r_lbuild_arg lm v v' : rel v v' -> lbuild_arg lm v' = lbuild_arg lm v.
Proof. intros R. unfold lbuild_arg. now rewrite (r_lbuild lm v v' R). Qed.
Ltac norm R ::= rewrite ?(r_esize _ _ R), ?(r_eim _ _ R), ?(r_edim _ _ R), ?(r_len _ _ R), ?(r_coca_size _ _ R),
  ?(r_at_pos _ _ R), ?(r_at_mat_pos _ _ R), ?(r_lbuild _ _ _ R), ?(r_lbuild_index _ _ _ R), ?(r_lbuild_arg _ _ _ R),
  ?(r_ind_vector _ _ _ R), ?(r_ind_matrix _ _ _ R), ?(r_subset_vec _ _ _ R), ?(r_subset_mat _ _ _ R), ?(rel_ob _ _ R).

(** What is done with the outcome of m; it does not catch std::bad_alloc. *)
Lemma grows_try {A C} (m : M world A) (k : outcome A -> M world C) : grows m -> (forall o, grows (k o)) ->
  (forall o w, ~ finished o -> ~ finished (fst (k o w))) -> grows (fun w => let (o, w1) := m w in k o w1).
Proof.
  intros Hm Hk Hb P p w L LE. destruct (Hm P p w L LE) as [Q [[_ B]|E]].
  - destruct (m w) as [o w1] eqn:W; cbn [fst snd] in *. destruct (Hk o P p w1 L) as [Q' _]; [lia|]. split; [congruence|].
    left. split; [exact p|]. now apply Hb.
  - rewrite E. destruct (m w) as [o w1]; cbn [fst snd] in *. rewrite <- Q. apply (Hk o P p w1 L). now rewrite Q.
Qed.
(** Cleaning up before an exception is passed on: destructors do not throw. *)
Definition quiet {A} (m : M world A) : Prop := forall w e, fst (m w) <> Thrown e.
Lemma quiet_bind {A B} (m : M world A) (f : A -> M world B) : quiet m -> (forall x, quiet (f x)) -> quiet (bind m f).
Proof. intros Qm Qf w e. unfold bind. specialize (Qm w). destruct (m w) as [[x|e'|u] w1]; [apply Qf|now elim (Qm e')|discriminate]. Qed.
Lemma quiet_destroy o : quiet (any_destroy o).
Proof.
  intros w e. unfold any_destroy, destroy, sexp_destroy, bind, st, del, upd, ret.
  destruct (kd (ob w o)); [destruct (ptr (ob w o)) as [b|] eqn:E; [|discriminate]; destruct (alloc (ob w o)); [|discriminate]|discriminate
    |destruct (todel (ob w o)); [|discriminate]; destruct (ptr (ob w o)) as [b|] eqn:E; [|discriminate]];
  rewrite ?E; destruct (hblk (hp w) b) as [|[] cs|]; discriminate.
Qed.
Lemma quiet_end x : quiet (vec_end x).
Proof. unfold vec_end, vec_destroy. repeat (apply quiet_bind; [|intros _]); auto using quiet_destroy; discriminate. Qed.
Lemma passed {A B} (m : M world A) e w : quiet m -> ~ finished (Thrown (A := B) e) -> ~ finished (fst (bind m (fun _ => throw (A := B) e) w)).
Proof. intros Q N. unfold bind. specialize (Q w). destruct (m w) as [[x|e'|u] w1]; [exact N|now elim (Q e')|exact (fun f => f)]. Qed.
Lemma grows_ext {A} (m m' : M world A) : (forall w, m' w = m w) -> grows m -> grows m'.
Proof. intros E H P p w L LE. rewrite !E. now apply H. Qed.
Lemma grows_scoped {A} x (m : M world A) : grows m -> grows (scoped x m).
Proof.
  intros Hm. apply (grows_ext (fun w => let (o, w1) := m w in (match o with Done y => bind (any_destroy x) (fun _ => ret y)
    | Thrown e => bind (any_destroy x) (fun _ => throw e) | Undef u => undef u end) w1)).
  - intros w. unfold scoped. now destruct (m w) as [[y|e|u] w1].
  - apply grows_try; [exact Hm|intros [y|e|u]; growing|]. intros [y|e|u] w N; [now elim N|now apply passed; [apply quiet_destroy|]|exact N].
Qed.
Lemma grows_assign_subset lm s x ind same e : grows (assign_subset lm s x ind same e).
Proof. unfold assign_subset. cbv zeta. growing. apply grows_scoped; growing. Qed.
Lemma grows_assign_subset_scalar x ind v : grows (assign_subset_scalar x ind v).
Proof. unfold assign_subset_scalar. growing. Qed.
#[local] Hint Resolve grows_assign_subset grows_assign_subset_scalar : grows.

Lemma grows_ctor_size x t n : grows (ctor_size x t n). Proof. unfold ctor_size. growing. Qed.
#[local] Hint Resolve grows_ctor_size : grows.
Lemma grows_vec_sized x t n : grows (vec_sized x t n). Proof. unfold vec_sized. growing. Qed.
Lemma grows_vec_default x t : grows (vec_default x t). Proof. unfold vec_default. growing. Qed.
#[local] Hint Resolve grows_vec_sized grows_vec_default : grows.
Lemma grows_vec_matrix x t r c : grows (vec_matrix x t r c). Proof. unfold vec_matrix. growing. Qed.
Lemma grows_vec_destroy x : grows (vec_destroy x). Proof. unfold vec_destroy. growing. Qed.
#[local] Hint Resolve grows_vec_matrix grows_vec_destroy : grows.
Lemma grows_vec_end x : grows (vec_end x). Proof. unfold vec_end. growing. Qed.
#[local] Hint Resolve grows_vec_end : grows.
Lemma grows_catch {A} (m : M world A) (c : M world unit) : grows m -> grows c -> quiet c ->
  grows (fun w => match m w with (Thrown e, w1) => bind c (fun _ => throw e) w1 | r => r end).
Proof.
  intros Hm Hc Qc. apply (grows_ext (fun w => let (o, w1) := m w in (match o with Thrown e => bind c (fun _ => throw e) | Done y => ret y | Undef u => undef u end) w1)).
  - intros w. now destruct (m w) as [[y|e|u] w1].
  - apply grows_try; [exact Hm|intros [y|e|u]; growing; now apply Hc|]. intros [y|e|u] w N; [now elim N|now apply passed|exact N].
Qed.
Lemma grows_built x m : grows m -> grows (built x m).
Proof. intros Hm. unfold built. apply (grows_catch m (vec_end x)); auto with grows. apply quiet_end. Qed.
#[local] Hint Resolve grows_built : grows.
Lemma grows_vec_of_expr lm x t e : grows (vec_of_expr lm x t e).
Proof.
  unfold vec_of_expr. cbv zeta. growing.
  apply (grows_catch (bind (if 0 <? esize v e then resize (OD x) (esize v e) else upd (OD x) (with_sz (esize v e)))
    (fun _ => bind (fill_temp lm (OD x) t e (esize v e)) (fun _ => take_shape (OD x) e)))
    (any_destroy (OD x))); [growing|growing|apply quiet_destroy|assumption].
Qed.
Lemma grows_vec_steal x s t : grows (vec_steal x s t). Proof. unfold vec_steal, ctor_steal. growing. Qed.
#[local] Hint Resolve grows_vec_of_expr grows_vec_steal : grows.

(* ------------------------------------------------------------------ makers *)

Lemma grows_arg_first lm x : grows (arg_first lm x). Proof. unfold arg_first. growing. Qed.
Lemma grows_create_rvec x t v : grows (create_rvec x t v). Proof. unfold create_rvec. growing. Qed.
#[local] Hint Resolve grows_arg_first grows_create_rvec : grows.
Lemma grows_vector_fn lm x t v : grows (vector_fn lm x t v). Proof. unfold vector_fn. growing. Qed.
Lemma grows_rep_loop lm x t e n : forall i c, grows (rep_loop lm x t e n i c).
Proof. induction n as [|n IH]; intros i c; cbn [rep_loop]; growing; apply IH. Qed.
#[local] Hint Resolve grows_vector_fn grows_rep_loop : grows.
Lemma grows_rep_fn lm x i t : grows (rep_fn lm x i t). Proof. unfold rep_fn. cbv zeta. growing. Qed.
Lemma grows_fill_expr lm o e : grows (fill_expr lm o e). Proof. unfold fill_expr. growing. Qed.
#[local] Hint Resolve grows_rep_fn grows_fill_expr : grows.
Lemma grows_matrix_fn lm x i r c : grows (matrix_fn lm x i r c).
Proof. unfold matrix_fn. growing; try (apply grows_built; growing). Qed.
Lemma grows_count_loop {A} x (go : A -> bool) put next n : forall s c, grows (count_loop x go put next n s c).
Proof. induction n as [|n IH]; intros s c; cbn [count_loop]; growing; apply IH. Qed.
#[local] Hint Resolve grows_matrix_fn grows_count_loop : grows.
Lemma grows_colon_int x p q : grows (colon_int x p q). Proof. unfold colon_int. cbv zeta. growing; try (apply grows_built; growing). Qed.
Lemma grows_colon_dbl x p q : grows (colon_dbl x p q). Proof. unfold colon_dbl. cbv zeta. growing; try (apply grows_built; growing). Qed.
#[local] Hint Resolve grows_colon_int grows_colon_dbl : grows.
Lemma grows_colon_fn lm x p q : grows (colon_fn lm x p q).
Proof. unfold colon_fn. cbv zeta. growing. Qed.
Lemma grows_coca_fill lm x t args : forall i, grows (coca_fill lm x t args i).
Proof. induction args as [|[v|t' e] r IH]; intros i; cbn [coca_fill]; growing; apply IH. Qed.
#[local] Hint Resolve grows_colon_fn grows_coca_fill : grows.
Lemma grows_coca_fn lm x args : grows (coca_fn lm x args). Proof. unfold coca_fn. cbv zeta. growing. Qed.
Lemma grows_test_fn lm p x e : grows (test_fn lm p x e). Proof. unfold test_fn. growing; try (apply grows_built; growing). Qed.
Lemma grows_dim_fn x e : grows (dim_fn x e). Proof. unfold dim_fn. growing; try (apply grows_built; growing). Qed.
#[local] Hint Resolve grows_coca_fn grows_test_fn grows_dim_fn : grows.
Lemma grows_lmake lm s m : grows (lmake lm s m).
Proof. unfold lmake. intros K k. apply grows_get. intros v v' R. destruct m; norm R; match goal with |- agree _ ?m ?m => change (grows_at K m) end; growing. Qed.
#[local] Hint Resolve grows_lmake : grows.

(* ---------------------------------------------------------------- programs *)

Lemma grows_lcondition lm c : grows (lcondition lm c). Proof. unfold lcondition, to_scalar, vat. growing. Qed.
Lemma grows_walk p n : forall i, reads (walk p i n).
Proof. induction n as [|n IH]; intros i; cbn [walk]; growing; apply IH. Qed.
#[local] Hint Resolve grows_lcondition grows_walk : grows.
Lemma grows_iterate x : reads (iterate_vec x). Proof. unfold iterate_vec. growing. Qed.
#[local] Hint Resolve grows_iterate : grows.
Lemma grows_lscope x m : grows m -> grows (lscope x m).
Proof.
  intros Hm. apply (grows_ext (fun w => let (o, w1) := m w in (match o with Done true => bind (vec_end x) (fun _ => ret true)
    | Thrown (Ass e) => bind (vec_end x) (fun _ => throw (Ass e)) | o => lift o end) w1)).
  - intros w. unfold lscope. now destruct (m w) as [[[]|[e|]|u] w1].
  - apply grows_try; [exact Hm|intros [[]|[e|]|u]; growing|]. intros [[]|[e|]|u] w N; try exact N; now elim N.
Qed.
Lemma grows_jscope x m : grows m -> grows (jscope x m).
Proof.
  intros Hm. apply (grows_ext (fun w => let (o, w1) := m w in (match o with Done More => ret More | Done f => bind (vec_end x) (fun _ => ret f)
    | Thrown (Ass e) => bind (vec_end x) (fun _ => throw (Ass e)) | o => lift o end) w1)).
  - intros w. unfold jscope. now destruct (m w) as [[[]|[e|]|u] w1].
  - apply grows_try; [exact Hm|intros [[]|[e|]|u]; growing|]. intros [[]|[e|]|u] w N; try exact N; now elim N.
Qed.
Lemma grows_andthen p q : grows p -> grows q -> grows (andthen p q). Proof. intros; unfold andthen. growing. Qed.
Lemma grows_rounds k c b : grows c -> grows b -> grows (rounds_of k c b).
Proof. intros Hc Hb. induction k as [|k IH]; cbn [rounds_of]; growing. now apply grows_andthen. Qed.
Lemma grows_each vs b : (forall v, grows (b v)) -> grows (each vs b).
Proof. intros Hb. induction vs as [|v r IH]; cbn [each]; growing. now apply grows_andthen. Qed.
Lemma grows_at_vec_set x i v : grows (at_vec_set x i v). Proof. unfold at_vec_set. growing. Qed.
Lemma grows_at_mat_set x i j v : grows (at_mat_set x i j v). Proof. unfold at_mat_set. growing. Qed.
#[local] Hint Resolve grows_at_vec_set grows_at_mat_set grows_lscope : grows.

Lemma grows_lrun N lm p : grows (lrun N lm p).
Proof.
  induction p; cbn [lrun]; try solve [growing]; try solve [growing; apply grows_lscope; growing; auto].
  - now apply grows_andthen.
  - apply grows_rounds; growing.
  - intros K k. apply grows_bind; [growing|]. intros v. apply grows_lscope; [|exact k]. intros K' k'. apply grows_bind; [growing|]. intros vs. now apply grows_each.
  - apply (grows_ext (fun w => let (o, w1) := lrun N lm p1 w in (match o with Thrown (Ass _) => lrun N lm p2 | o => lift o end) w1)).
    + intros w. now destruct (lrun N lm p1 w) as [[y|[e|]|u] w1].
    + apply grows_try; [exact IHp1|intros [y|[e|]|u]; growing; now apply IHp2|]. intros [y|[e|]|u] w F; try exact F; now elim F.
Qed.
#[local] Hint Resolve grows_lrun : grows.


(* ------------------------------------------------------------ calls from R *)

Lemma grows_cpp2R lm t e : grows (cpp2R lm t e).
Proof. unfold cpp2R, r_matrix, r_vector, for_int. cbv zeta. growing. Qed.
Lemma grows_assign_R x r : grows (assign_R x r).
Proof.
  unfold assign_R, init_sexp, r_copy.
  assert (L : reads (r_length r)).
  { intros P w L LE. unfold r_length. cbn [hp with_limit hblk]. destruct (hblk _ _) as [|[] cs|]; try stay. destruct (_ <=? _); stay. }
  growing; apply L.
Qed.
Lemma grows_vec_wrap x r : grows (vec_wrap x r).
Proof.
  unfold vec_wrap, sexp_wrap.
  assert (L : reads (r_length r)).
  { intros P w L LE. unfold r_length. cbn [hp with_limit hblk]. destruct (hblk _ _) as [|[] cs|]; try stay. destruct (_ <=? _); stay. }
  growing; apply L.
Qed.
#[local] Hint Resolve grows_cpp2R grows_assign_R grows_vec_wrap : grows.
Lemma grows_lifetime x m : grows m -> grows (lifetime x m).
Proof.
  intros Hm. apply (grows_ext (fun w => let (o, w1) := m w in (match o with Done (Some o) => bind (vec_end x) (fun _ => ret (Some o))
    | Thrown (Ass e) => bind (vec_end x) (fun _ => throw (Ass e)) | o => lift o end) w1)).
  - intros w. unfold lifetime. now destruct (m w) as [[[]|[e|]|u] w1].
  - apply grows_try; [exact Hm|intros [[]|[e|]|u]; growing|]. intros [[]|[e|]|u] w F; try exact F; now elim F.
Qed.
Lemma grows_frun N lm b : grows (frun N lm b).
Proof. induction b; cbn [frun]; try solve [growing]; growing; apply grows_lifetime; auto. Qed.
Lemma grows_call N lm ps b : grows (call N lm ps b).
Proof.
  induction ps as [|p ps IH]; cbn [call]; [apply grows_frun|]. intros P p0. apply grows_bind; [growing|]. intros _. apply grows_lifetime; [growing|exact p0].
Qed.

Lemma grows_jthen p q : grows p -> grows q -> grows (jthen p q).
Proof. intros Hp Hq. unfold jthen. intros P k. apply grows_bind; [now apply Hp|]. intros []; growing; now apply Hq. Qed.
Lemma grows_jround f n : grows n -> grows (jround f n).
Proof. intros Hn. destruct f; cbn [jround]; growing. Qed.
Lemma grows_jrounds k c b : grows c -> grows b -> grows (jrounds k c b).
Proof. intros Hc Hb. induction k as [|k IH]; cbn [jrounds]; growing; try (now apply Hc); try (now apply Hb). now apply grows_jround. Qed.
Lemma grows_jeach vs b : (forall v, grows (b v)) -> grows (jeach vs b).
Proof. intros Hb. induction vs as [|v r IH]; cbn [jeach]; growing; try (now apply Hb). now apply grows_jround. Qed.
Lemma grows_jrun N lm p : grows (jrun N lm p).
Proof.
  induction p; cbn [jrun]; try solve [growing]; try solve [growing; apply grows_jscope; growing; auto].
  - now apply grows_jthen.
  - apply grows_jrounds; growing.
  - intros K k. apply grows_bind; [growing|]. intros v. apply grows_jscope; [|exact k]. intros K' k'. apply grows_bind; [growing|]. intros vs. now apply grows_jeach.
  - apply (grows_ext (fun w => let (o, w1) := jrun N lm p1 w in (match o with Thrown (Ass _) => jrun N lm p2 | o => lift o end) w1)).
    + intros w. now destruct (jrun N lm p1 w) as [[y|[e|]|u] w1].
    + apply grows_try; [exact IHp1|intros [y|[e|]|u]; growing; now apply IHp2|]. intros [y|[e|]|u] w F; try exact F; now elim F.
Qed.
Lemma grows_jcall N lm ps b : grows (jcall N lm ps b).
Proof.
  induction ps as [|p ps IH]; cbn [jcall]; [apply grows_jrun|]. intros P p0. apply grows_bind; [growing|]. intros _. apply grows_jscope; [growing|exact p0].
Qed.
Lemma grows_wcall N lm ps b : grows (wcall N lm ps b).
Proof.
  induction ps as [|[[] p] ps IH]; cbn [wcall]; [apply grows_jrun| |]; intros P p0; (apply grows_bind; [growing|]; intros _; apply grows_jscope; [growing|exact p0]).
Qed.
