(** C88: element types of vectors and expressions. *)
From Coq Require Import ZArith List String Bool Lia.
From Verif Require Import Base Num StoreModel VecModel SubsetModel AllocModel ProgModel LangModel StaticModel Spec SpecExpr SpecHist SpecSafe SpecLang SpecStatic SpecAlloc SpecReach StoreProofs StoreThms VecProofs SubsetProofs AllocProofs4 StaticProofs ReachProofs Examples PropVec PropLang.
Import ListNotations.
Open Scope Z_scope.
Local Notation length := List.length (only parsing).
Local Notation concat := List.concat (only parsing).

(** The empty world, and the world of the examples. *)
Lemma empty_typed lim : cells_typed (empty_world lim).
Proof. exists (fun _ => TBool). split; [discriminate|discriminate]. Qed.
Lemma ex_typed : cells_typed ex_w.
Proof.
  exists (fun _ => TDouble). split.
  - intros [[|[|[|x]]]|[|[|[|x]]]] a H; vm_compute in H; try discriminate; injection H as <-; vm_compute; auto.
  - intros [|[|a]] own cs v H; vm_compute in H; try discriminate; injection H as _ <-; intros V; cbn in V;
    repeat match goal with H : _ \/ _ |- _ => destruct H as [H|H] end; try contradiction; try discriminate; injection V as <-; reflexivity.
Qed.

(** Whatever a program does, as long as it is defined: every element written
    has the type of the vectors that can see it, and the vectors the program
    can name keep their types; also when an exception ends it. *)
Theorem c88_types_kept : forall N lm s L V G w r w', incl V L -> SpecLang.scoped L V s ->
  cells_typed w -> has_types G V w -> lrun N lm s w = (r, w') -> (forall u, r <> Undef u) ->
  cells_typed w' /\ has_types G V w'.
Proof.
  intros N lm s L V G w r w' I S C H E U. set (T := fun o => sty (ob w o)).
  assert (O : temps_ok V T) by (intros x Hx; unfold T; destruct (H x Hx) as [-> ->]; reflexivity).
  pose proof (run_typed nothing lm N s L V T I S O w (proj2 (ct_nothing w) C) (fun _ => eq_refl)) as K. rewrite E in K.
  assert (X : exists T', cells_typed w' /\ tys T' w' /\ agree L T T').
  { destruct r as [a|e|u]; [| |now destruct (U u)]; destruct K as [T' [K1 K]]; apply ct_nothing in K1; exists T'; tauto. }
  destruct X as [T' [C' [Y' A']]]. split; [exact C'|]. intros x Hx. rewrite !Y'.
  rewrite (A' (OD x)), (A' (OT x)) by (cbn; auto). apply (H x Hx).
Qed.
Print Assumptions c88_types_kept.

(** The program of C80 states the types the compiler finds, and is one of
    those of the theorem. *)
Example c88_types_ex : annot (fun _ => TBool) (ex_lang ex_last) /\ SpecLang.scoped [] [] (ex_lang ex_last) /\
  cells_typed (empty_world 100) /\ fst (lrun 20 ex_lm (ex_lang LSkip) (empty_world 100)) = Done true /\
  cells_typed ex_w /\ has_types (fun _ => TDouble) [0; 1]%nat ex_w /\
  SpecLang.scoped [0; 1]%nat [0; 1]%nat (LAssign 1 (LBin ODiv (LVar 0) (LVar 1))).
Proof.
  split; [cbn; intuition|]. split; [apply ex_lang_scoped; cbn; unfold incl; cbn; intuition|].
  split; [apply empty_typed|]. split; [vm_compute; reflexivity|]. split; [apply ex_typed|].
  split; [|cbn; unfold incl; cbn; intuition]. intros x [<- |[<- |[]]]; vm_compute; auto.
Qed.

(** Expressions: the type of the vector object is the one found from the text
    alone, and so are the types programs state for subscripts and arguments. *)
Theorem c88_static_type : forall lm w G V e e', cells_typed w -> has_types G V w -> incl (lvars e) V ->
  lbuild lm w e = Done e' -> styp w e' = ltyp G e.
Proof. intros lm w G V e e' C H I E. exact (proj1 (proj1 (build_typed lm w G V C H) e I e' E)). Qed.
Print Assumptions c88_static_type.

Theorem c88_subscript_type : forall lm w G V i t e', cells_typed w -> has_types G V w -> incl (lvars_i i) V ->
  iannot G i -> lbuild_index lm w i = Done (IV t e') -> t = styp w e'.
Proof.
  intros lm w G V i t e' C H I A E. destruct i as [b|z|f|u e]; cbn [lbuild_index] in E; try discriminate.
  destruct (lbuild lm w e) as [e1|?|?] eqn:B; try discriminate. cbn [obind] in E. injection E as <- <-.
  destruct A as [-> _]. symmetry. eapply c88_static_type; eauto.
Qed.
Print Assumptions c88_subscript_type.
Example c88_subscript_ex : iannot (fun _ => TDouble) (LXV TDouble (LBin OGt (LVar 0) (LLit (VI 1)))) /\
  incl (lvars_i (LXV TDouble (LBin OGt (LVar 0) (LLit (VI 1))))) [0; 1]%nat /\
  exists e, lbuild_index ex_lm ex_w (LXV TDouble (LBin OGt (LVar 0) (LLit (VI 1)))) = Done (IV TDouble e) /\ styp ex_w e = TDouble /\
    fst (elem ex_lm e 2 ex_w) = Done (VB true) /\ fst (vat ex_lm e 2 ex_w) = Done (VD (i2f 1)).
Proof.
  split; [cbn; auto|]. split; [intros x [<- |[]]; cbn; auto|]. eexists. split; [reflexivity|]. split; [|split]; vm_compute; reflexivity.
Qed.

(** The number computed for an element. *)
Theorem c88_element_type : forall lm w e i v, cells_typed w -> tmps_typed e -> fst (elem lm e i w) = Done v ->
  ty_of v = rtyp (fun x => sty (ob w (OD x))) e.
Proof. intros lm w e i v C Tm E. exact (elem_typed lm w C e i v Tm E). Qed.
Print Assumptions c88_element_type.

(** What operator[] of the vector object gives: its element type for stored
    elements, double otherwise. *)
Theorem c88_access_type : forall lm w e i v, cells_typed w -> tmps_typed e -> fst (vat lm e i w) = Done v ->
  ty_of v = match e with EVar _ | ETmp _ _ _ | ESca _ => styp w e | _ => TDouble end.
Proof. intros lm w e i v C Tm E. rewrite (vat_typed lm w e i v C Tm E). destruct e; reflexivity. Qed.
Print Assumptions c88_access_type.

(** Sums, differences, products and powers of stored elements have the element
    type the object claims. *)
Theorem c88_one_type : forall w e, one_type e -> rtyp (fun x => sty (ob w (OD x))) e = styp w e.
Proof.
  intros w. induction e as [x|t l m|u|e IH ind m|op l IHl r IHr|op e IH]; cbn [one_type]; intros H; try reflexivity; [| |contradiction].
  - destruct e; try discriminate; reflexivity.
  - destruct H as [H1 [H2 [H3 H4]]]. cbn [rtyp styp]. rewrite H1, (IHl H3), (IHr H4). destruct op; reflexivity || congruence.
Qed.
Print Assumptions c88_one_type.

(** A function that makes a vector makes one of the type the compiler expects. *)
Theorem c88_made_type : forall lm s m w w', cells_typed w -> lmake lm s m w = (Done tt, w') ->
  cells_typed w' /\ sty (ob w' (OD s)) = lmaker_ty m /\
  (forall x, x <> s -> sty (ob w' (OD x)) = sty (ob w (OD x)) /\ sty (ob w' (OT x)) = sty (ob w (OT x))).
Proof.
  intros lm s m w w' C E.
  assert (K : forall x, x <> s -> exists T', cells_typed w' /\ tys T' w' /\ agree [x] (fun o => sty (ob w o)) T' /\ T' (OD s) = lmaker_ty m).
  { intros x N. pose proof (tr_make nothing lm [x] (fun o => sty (ob w o)) s m) as K. specialize (K ltac:(cbn; intuition congruence) w (proj2 (ct_nothing w) C) (fun _ => eq_refl)).
    rewrite E in K. destruct K as [T' [K1 K]]. exists T'. split; [now apply ct_nothing|exact K]. }
  destruct (K (S s) ltac:(lia)) as [T' [C' [Y' [_ M]]]]. split; [exact C'|]. split; [now rewrite Y'|].
  intros x N. destruct (K x N) as [T2 [_ [Y2 [A2 _]]]]. rewrite !Y2. split; apply A2; now left.
Qed.
Print Assumptions c88_made_type.

(** Vectors 0 and 1 hold the ints 1 and 2. *)
Definition ex_half : lstmt :=
  LSized 0 TInt 1 (LSized 1 TInt 1 (LSeq (LElem 0 0 (VI 1)) (LSeq (LElem 1 0 (VI 2)) (LWhile (LLit (VB true)) LSkip)))).
Definition half_w : world := snd (lrun 1 ex_lm ex_half (empty_world 100)).

(* ---------------------------------------------- comparisons as subscripts *)

Lemma b1 : f2size (i2f (b2z true)) = Done 1. Proof. vm_compute. reflexivity. Qed.
Lemma b0 : f2size (i2f (b2z false)) = Done 0. Proof. vm_compute. reflexivity. Qed.
Lemma c1 : f2size (fsub (i2f (b2z true)) fone) = Done 0. Proof. vm_compute. reflexivity. Qed.
Lemma c0 : f2size (fsub (i2f (b2z false)) fone) = Undef UB_cast. Proof. vm_compute. reflexivity. Qed.
Lemma nth_map_seq (f : nat -> bool) n i : (i < n)%nat -> nth i (map f (seq 0 n)) false = f i.
Proof.
  intros H. assert (E : nth i (map f (seq 0 n)) (f 0%nat) = f i) by (rewrite map_nth, seq_nth by lia; reflexivity).
  rewrite <- E. apply nth_indep. now rewrite map_length, seq_length.
Qed.
Lemma tb b : truth (VD (v2f (VB b))) = b. Proof. destruct b; vm_compute; reflexivity. Qed.

Lemma idx_answers lm w t op l r bs i : answers lm w (EBin op l r) bs -> (i < length bs)%nat ->
  idx_at lm w t (EBin op l r) (Z.of_nat i) = Done (VD (v2f (VB (nth i bs false)))).
Proof. intros [_ H] Hi. unfold idx_at. rewrite (H i Hi). reflexivity. Qed.

(** A comparison of doubles (or of doubles and ints) as a subscript: it is read
    as positions, TRUE as the first element and FALSE as a position behind all
    others. *)
Theorem c88_comparison_double : forall lm w op l r bs p, answers lm w (EBin op l r) bs -> bs <> [] ->
  Z.of_nat (length bs) < 2 ^ 64 -> styp w (EBin op l r) = TDouble ->
  subset_vec lm w p (IV (styp w (EBin op l r)) (EBin op l r)) =
    Done (ESub p (map (fun b : bool => if b then 0 else 2 ^ 64 - 1) bs) mp_none).
Proof.
  intros lm w op l r bs p A Ne Sm E. rewrite E. unfold subset_vec, calc_ind_vector. destruct A as [Sz A]. rewrite Sz.
  rewrite (omap_iota _ _ (map (fun b : bool => if b then 0 else 2 ^ 64 - 1) bs) 0).
  - cbn [obind]. rewrite store_ind_ok; [reflexivity| |now rewrite map_length]. destruct bs; [congruence|discriminate].
  - rewrite map_length. lia.
  - intros i Hi. rewrite Nat2Z.id in Hi. rewrite (idx_answers lm w TDouble op l r bs i (conj Sz A) Hi). cbn [obind v2f].
    replace (nth i (map (fun b : bool => if b then 0 else 2 ^ 64 - 1) bs) 0) with (if nth i bs false then 0 else 2 ^ 64 - 1).
    + destruct (nth i bs false); [rewrite b1|rewrite b0]; reflexivity.
    + assert (X : nth i (map (fun b : bool => if b then 0 else 2 ^ 64 - 1) bs) (if false then 0 else 2 ^ 64 - 1) = if nth i bs false then 0 else 2 ^ 64 - 1)
        by (exact (map_nth (fun b : bool => if b then 0 else 2 ^ 64 - 1) bs false i)).
      rewrite <- X. apply nth_indep. now rewrite map_length.
Qed.
Print Assumptions c88_comparison_double.

(** What such a subset of a vector contains: where the comparison holds the
    first element, and an error where it does not. *)
Theorem c88_comparison_read : forall lm w op l r bs x s i, answers lm w (EBin op l r) bs ->
  subset_vec lm w (EVar x) (IV TDouble (EBin op l r)) = Done s -> bs <> [] ->
  kd (ob w (OD x)) = KBuffer -> alloc (ob w (OD x)) = true -> sz (ob w (OD x)) = Z.of_nat (length bs) ->
  Z.of_nat (length bs) < 2 ^ 64 -> styp w (EBin op l r) = TDouble -> (i < length bs)%nat ->
  fst (elem lm s (Z.of_nat i) w) =
    if nth i bs false then fst (elem lm (EVar x) 0 w)
    else Thrown (Ass "Error: out of boundaries --> value beyond size of vector").
Proof.
  intros lm w op l r bs x s i A E Ne K Al Sz Sm St Hi.
  pose proof (c88_comparison_double lm w op l r bs (EVar x) A Ne Sm St) as D. rewrite St, E in D.
  assert (Es : s = ESub (EVar x) (map (fun b : bool => if b then 0 else 2 ^ 64 - 1) bs) mp_none) by congruence. rewrite Es.
  cbn [elem]. rewrite bind_get. cbn [esize]. rewrite Sz. unfold modz.
  destruct (Z.eqb_spec (Z.of_nat (length bs)) 0) as [Z0|_]; [lia|]. rewrite Z.mod_small by lia.
  rewrite bind_lift_done. unfold ind_at. rewrite map_length. rewrite (proj2 (Z.ltb_lt _ _)) by lia. rewrite bind_lift_done, Nat2Z.id.
  replace (nth i (map (fun b : bool => if b then 0 else 2 ^ 64 - 1) bs) 0) with (if nth i bs false then 0 else 2 ^ 64 - 1).
  2: { assert (X : nth i (map (fun b : bool => if b then 0 else 2 ^ 64 - 1) bs) (if false then 0 else 2 ^ 64 - 1) = if nth i bs false then 0 else 2 ^ 64 - 1)
        by (exact (map_nth (fun b : bool => if b then 0 else 2 ^ 64 - 1) bs false i)).
      rewrite <- X. apply nth_indep. now rewrite map_length. }
  destruct (nth i bs false).
  - unfold bind. destruct (at_rd (OD x) 0 w) as [[v|?|?] w1]; reflexivity.
  - unfold at_rd. unfold bind at 1 2, st. rewrite K. unfold get_at. unfold bind, st. rewrite Al, Sz. cbn [ass ret].
    rewrite (proj2 (Z.ltb_ge _ _)) by lia. reflexivity.
Qed.
Print Assumptions c88_comparison_read.

(** A comparison of ints (or of ints and bools): the same positions if it
    holds everywhere, otherwise the conversion of -1 to std::size_t is
    undefined. *)
Theorem c88_comparison_int : forall lm w op l r bs p, answers lm w (EBin op l r) bs -> bs <> [] ->
  Z.of_nat (length bs) < 2 ^ 64 -> styp w (EBin op l r) = TInt ->
  subset_vec lm w p (IV (styp w (EBin op l r)) (EBin op l r)) =
    if forallb (fun b => b) bs then Done (ESub p (repeat 0 (length bs)) mp_none) else Undef UB_cast.
Proof.
  intros lm w op l r bs p A Ne Sm E. rewrite E. unfold subset_vec, calc_ind_vector. destruct A as [Sz A]. rewrite Sz, Nat2Z.id.
  assert (X : forall cs k, (forall i, (i < length cs)%nat -> fst (elem lm (EBin op l r) (Z.of_nat (k + i)) w) = Done (VB (nth i cs false))) ->
    omap (fun i : Z => v <-o idx_at lm w TInt (EBin op l r) i ;; size_less1 v) (map Z.of_nat (seq k (length cs))) =
    if forallb (fun b => b) cs then Done (repeat 0 (length cs)) else Undef UB_cast).
  { induction cs as [|c cs IH]; intros k H; [reflexivity|]. cbn [length seq map omap forallb repeat].
    pose proof (H 0%nat ltac:(cbn; lia)) as H0. rewrite PeanoNat.Nat.add_0_r in H0. cbn [nth] in H0.
    unfold idx_at at 1. rewrite H0. cbn [obind stored size_less1 v2f]. rewrite (IH (S k)).
    - destruct c; [rewrite c1|rewrite c0; reflexivity]. cbn [obind andb]. destruct (forallb _ cs); reflexivity.
    - intros i Hi. specialize (H (S i) ltac:(cbn; lia)). cbn [nth] in H. replace (S k + i)%nat with (k + S i)%nat by lia. exact H. }
  unfold iota. rewrite (X bs 0%nat A). destruct (forallb _ bs); [|reflexivity]. cbn [obind].
  rewrite store_ind_ok; [reflexivity| |now rewrite repeat_length]. destruct bs; [congruence|discriminate].
Qed.
Print Assumptions c88_comparison_int.

(** Only a comparison of bools selects the elements where it holds. *)
Theorem c88_comparison_bool : forall lm w op l r bs p, answers lm w (EBin op l r) bs -> bs <> [] ->
  esize w p < 2 ^ 64 -> styp w (EBin op l r) = TBool -> selected bs (Z.to_nat (esize w p)) <> [] ->
  subset_vec lm w p (IV (styp w (EBin op l r)) (EBin op l r)) = Done (ESub p (selected bs (Z.to_nat (esize w p))) mp_none).
Proof.
  intros lm w op l r bs p A Ne Sm E Sel. rewrite E. unfold subset_vec, calc_ind_vector. pose proof A as [Sz _]. rewrite Sz.
  set (n := Z.to_nat (esize w p)) in *.
  assert (L0 : (0 < length bs)%nat) by (destruct bs; [congruence|cbn; lia]).
  rewrite (omap_iota _ n (map (fun i => nth (Nat.modulo i (length bs)) bs false) (seq 0 n)) false).
  - cbn [obind]. rewrite true_at_spec, map_length, seq_length.
    assert (F : filter (fun i => nth i (map (fun i => nth (Nat.modulo i (length bs)) bs false) (seq 0 n)) false) (seq 0 n) =
       filter (fun i => nth (Nat.modulo i (length bs)) bs false) (seq 0 n)).
    { apply filter_ext_in. intros i Hi. apply in_seq in Hi. clear Sel.
      apply (nth_map_seq (fun i => nth (Nat.modulo i (length bs)) bs false)). lia. }
    rewrite F. change (map Z.of_nat (filter (fun i : nat => nth (Nat.modulo i (length bs)) bs false) (seq 0 n))) with (selected bs n).
    rewrite store_ind_ok; [reflexivity|exact Sel|]. unfold selected. rewrite map_length.
    assert (Q : (length (filter (fun i : nat => nth (Nat.modulo i (length bs)) bs false) (seq 0 n)) <= n)%nat).
    { rewrite <- (seq_length n 0) at 2. generalize (seq 0 n). intros q. induction q as [|a q IH]; cbn [filter length]; [lia|].
      destruct (nth _ bs false); cbn [length]; lia. }
    unfold n in *. clearbody n. destruct (Z.le_gt_cases 0 (esize w p)); lia.
  - now rewrite map_length, seq_length.
  - intros i Hi. unfold modz. destruct (Z.eqb_spec (Z.of_nat (length bs)) 0) as [Z0|_]; [lia|]. cbn [obind].
    replace (Z.of_nat i mod Z.of_nat (length bs)) with (Z.of_nat (Nat.modulo i (length bs))) by (rewrite Nat2Z.inj_mod; reflexivity).
    rewrite (idx_answers lm w TBool op l r bs _ A) by (apply PeanoNat.Nat.mod_upper_bound; lia). cbn [obind]. rewrite tb.
    f_equal. symmetry. apply (nth_map_seq (fun i => nth (Nat.modulo i (length bs)) bs false)). lia.
Qed.
Print Assumptions c88_comparison_bool.
(** Comparisons of int vectors that hold or not, and of bools. *)
Example c88_comparison_ex :
  answers ex_lm half_w (EBin OLt (EVar 0) (EVar 1)) [true] /\ styp half_w (EBin OLt (EVar 0) (EVar 1)) = TInt /\
  answers ex_lm half_w (EBin OGt (EVar 0) (EVar 1)) [false] /\
  answers ex_lm half_w (EBin OEq (ETmp TBool [VB true; VB false] mp_none) (ESca (VB true))) [true; false] /\
  styp half_w (EBin OEq (ETmp TBool [VB true; VB false] mp_none) (ESca (VB true))) = TBool /\ selected [true; false] 5 = [0; 2; 4].
Proof.
  split; [split; [vm_compute; reflexivity|intros [|i] Hi; [vm_compute; reflexivity|cbn in Hi; lia]]|].
  split; [vm_compute; reflexivity|].
  split; [split; [vm_compute; reflexivity|intros [|i] Hi; [vm_compute; reflexivity|cbn in Hi; lia]]|].
  split; [split; [vm_compute; reflexivity|intros [|[|i]] Hi; [vm_compute; reflexivity..|cbn in Hi; lia]]|].
  split; vm_compute; reflexivity.
Qed.

(** C88, comparisons, refuted: the elements selected by v(v > 1) are not those
    larger than 1.  Vector 0 holds 1, 2, 3: the subset consists of the positions
    2^64 - 1, 0, 0. *)
Theorem c88_comparison_refuted : ~ forall lm w op l r bs p ind, cells_typed w -> compares op = true ->
  answers lm w (EBin op l r) bs ->
  subset_vec lm w p (IV (styp w (EBin op l r)) (EBin op l r)) = Done (ESub p ind mp_none) ->
  forall k, In k ind -> 0 <= k < Z.of_nat (length bs) /\ nth (Z.to_nat k) bs false = true.
Proof.
  intros H. specialize (H ex_lm ex_w OGt (EVar 0) (ESca d1) [false; true; true] (EVar 0) [2 ^ 64 - 1; 0; 0] ex_typed eq_refl).
  assert (A : answers ex_lm ex_w (EBin OGt (EVar 0) (ESca d1)) [false; true; true]).
  { split; [vm_compute; reflexivity|]. intros i Hi. destruct i as [|[|[|i]]]; [vm_compute; reflexivity..|cbn in Hi; lia]. }
  specialize (H A ltac:(vm_compute; reflexivity) 0 ltac:(cbn; auto)). cbn in H. destruct H as [_ H]. discriminate.
Qed.
Print Assumptions c88_comparison_refuted.

(** C88, makers, refuted: rep and matrix of a quotient of ints do not hold the
    quotient: rep(a / b, 1) for ints 1 and 2 is 0. *)
Lemma half_typed : cells_typed half_w.
Proof.
  assert (F : fst (lrun 1 ex_lm ex_half (empty_world 100)) = Done false) by (vm_compute; reflexivity).
  unfold half_w. destruct (lrun 1 ex_lm ex_half (empty_world 100)) as [r w1] eqn:E. cbn [fst snd] in *. subst r.
  apply (c88_types_kept 1 ex_lm ex_half [] [] (fun _ => TInt) (empty_world 100) (Done false) w1).
  - intros x [].
  - cbn. unfold incl. cbn. intuition.
  - apply empty_typed.
  - intros x [].
  - exact E.
  - discriminate.
Qed.
Definition half_e : expr := EBin ODiv (EVar 0) (EVar 1).
Lemma half_made : fst (rep_fn ex_lm 2 (AV (styp half_w half_e) half_e) (AS (VI 1)) half_w) = Done tt /\
  fst (get_at (OD 2) 0 (snd (rep_fn ex_lm 2 (AV (styp half_w half_e) half_e) (AS (VI 1)) half_w))) = Done (VI 0) /\
  fst (elem ex_lm half_e 0 half_w) = Done (VD (fdiv (i2f 1) (i2f 2))) /\ esize half_w half_e = 1.
Proof. split; [|split; [|split]]; vm_compute; reflexivity. Qed.
Theorem c88_quotient_refuted : ~ forall lm w s e w', cells_typed w ->
  rep_fn lm s (AV (styp w e) e) (AS (VI 1)) w = (Done tt, w') -> forall i v, fst (elem lm e i w) = Done v -> 0 <= i < esize w e ->
  exists v', fst (get_at (OD s) i w') = Done v' /\ v2f v' = v2f v.
Proof.
  intros H. destruct half_made as [H1 [H2 [H3 H4]]].
  destruct (rep_fn ex_lm 2 (AV (styp half_w half_e) half_e) (AS (VI 1)) half_w) as [r w'] eqn:E. cbn [fst snd] in H1, H2. rewrite H1 in E.
  assert (I : 0 <= 0 < esize half_w half_e) by (rewrite H4; lia).
  destruct (H ex_lm half_w 2%nat half_e w' half_typed E 0 _ H3 I) as [v' [G V]].
  rewrite H2 in G. injection G as <-. vm_compute in V. discriminate.
Qed.
Print Assumptions c88_quotient_refuted.

(** coca takes the type of the operation instead, a double: it holds the
    numbers, whatever its arguments compute. *)
Lemma cast_num T v : (level (ty_of v) <= level T)%nat -> exists u, cast T v = Done u /\ v2f u = v2f v.
Proof. destruct T, v; cbn; intros L; try lia; eexists; split; reflexivity. Qed.
(** An argument of coca in a program that compiles, with its type. *)
Definition coca_arg (w : world) (a : arg) : Prop :=
  match a with
  | AS _ => True
  | AV t e => t = dtyp w e /\ tmps_typed e /\ match e with EVar _ | ETmp _ _ _ | EBin _ _ _ => True | _ => False end
  end.
Theorem c88_coca : forall lm w x args ls, world_shape w -> cells_typed w -> unborn w (OD x) -> unborn w (OT x) ->
  (forall a, In a args -> ~ In x (arg_vars a)) -> Forall (coca_arg w) args -> Forall2 (items lm w) args ls ->
  concat ls <> [] -> Z.of_nat (length (concat ls)) < 2 ^ 31 -> fits w (Z.of_nat (length (concat ls))) ->
  exists w' us, coca_fn lm x args w = (Done tt, w') /\ made w w' x (coca_type args) us mp_none /\
    map v2f us = map v2f (concat ls).
Proof.
  intros lm w x args ls WO CT D1 D2 Nx Ca It Ne Hb Ft.
  assert (Na : args <> []) by (intros ->; inversion It; subst; now apply Ne).
  destruct (coca_type_spec args Na) as [_ Hm].
  assert (K : forall v, In v (concat ls) -> exists u, cast (coca_type args) v = Done u /\ v2f u = v2f v).
  { revert Hm. generalize (coca_type args). intros T Hm. clear - CT Ca It Hm.
    induction It as [|a l args ls I1 I2 IH]; intros v Hv; cbn in Hv; [contradiction|].
    apply in_app_or in Hv as [Hv|Hv]; [|apply IH; auto; [now inversion Ca|intros b Hb; apply Hm; now right]].
    inversion Ca as [|? ? C1 C2]; subst. specialize (Hm a (or_introl eq_refl)).
    destruct a as [u|t e]; cbn [arg_ty items coca_arg] in *.
    - subst l. destruct Hv as [-> |[]]. apply cast_num. destruct (ty_of v), T; cbn in *; lia.
    - destruct C1 as [-> [Tm Sh]]. destruct I1 as [Ls El]. apply In_nth with (d := VB false) in Hv as [i [Hi Hv]].
      specialize (El i Hi). rewrite Hv in El. assert (Ev : fst (elem lm e (Z.of_nat i) w) = Done v) by (rewrite El; reflexivity).
      pose proof (elem_typed lm w CT e _ v Tm Ev) as Ty.
      destruct e; try contradiction; cbn [dtyp styp rtyp] in *.
      + apply cast_num. rewrite Ty. unfold types_of. destruct (sty _), T; cbn in *; lia.
      + apply cast_num. rewrite Ty. destruct t, T; cbn in *; lia.
      + destruct T; cbn in Hm; try lia. exists (VD (v2f v)). split; [destruct v; reflexivity|reflexivity]. }
  assert (C : exists us, Forall2 (fun v u => cast (coca_type args) v = Done u) (concat ls) us /\ map v2f us = map v2f (concat ls)).
  { clear - K. induction (concat ls) as [|v l IH]; [exists []; split; [constructor|reflexivity]|].
    destruct IH as [us [H1 H2]]; [intros u Hu; apply K; now right|].
    destruct (K v (or_introl eq_refl)) as [u [Hu Ev]]. exists (u :: us). split; [now constructor|]. cbn [map]. now rewrite Ev, H2. }
  destruct C as [us [C Ev]]. pose proof (Forall2_len _ _ _ C) as Ln.
  destruct (coca_done lm w x args ls us) as [w' [E M]]; auto.
  - intros ->. cbn in Ln. now destruct (concat ls).
  - lia.
  - now rewrite <- Ln.
  - exists w', us. auto.
Qed.
Print Assumptions c88_coca.
(** coca(a / b, TRUE) for the ints 1 and 2. *)
Example c88_coca_ex : coca_arg half_w (AV (dtyp half_w half_e) half_e) /\ coca_arg half_w (AS (VB true)) /\
  items ex_lm half_w (AV (dtyp half_w half_e) half_e) [VD (fdiv (i2f 1) (i2f 2))] /\
  fst (coca_fn ex_lm 2 [AV (dtyp half_w half_e) half_e; AS (VB true)] half_w) = Done tt /\
  fst (get_at (OD 2) 0 (snd (coca_fn ex_lm 2 [AV (dtyp half_w half_e) half_e; AS (VB true)] half_w))) = Done (VD (fdiv (i2f 1) (i2f 2))).
Proof.
  split; [split; [reflexivity|split; [split; exact I|exact I]]|]. split; [exact I|]. split; [split; [vm_compute; reflexivity|]|].
  - intros [|i] Hi; [|cbn in Hi; lia]. assert (P := elem_pure ex_lm half_e 0 half_w).
    assert (F : fst (elem ex_lm half_e 0 half_w) = Done (VD (fdiv (i2f 1) (i2f 2)))) by (vm_compute; reflexivity).
    cbn [nth Z.of_nat]. rewrite (surjective_pairing (elem ex_lm half_e 0 half_w)), P, F. reflexivity.
  - split; vm_compute; reflexivity.
Qed.

(** The types programs state for arguments. *)
Theorem c88_argument_type : forall lm w G V a t e', cells_typed w -> has_types G V w -> incl (avars a) V ->
  lbuild_arg lm w a = Done (AV t e') -> (aannot G a -> t = styp w e') /\ (cannot G a -> t = dtyp w e').
Proof.
  intros lm w G V a t e' C H I E. destruct a as [v|u e]; cbn [lbuild_arg] in E; [discriminate|].
  destruct (lbuild lm w e) as [e1|?|?] eqn:B; try discriminate. cbn [obind] in E. injection E as <- <-.
  pose proof (c88_static_type lm w G V e e1 C H I B) as S. split; intros [-> _]; [now symmetry|].
  assert (K : forall (P : ety -> Prop), P (styp w e1) -> (forall op l r, e1 = EBin op l r -> P TDouble) -> P (dtyp w e1))
    by (intros P K1 K2; destruct e1; try exact K1; eapply K2; reflexivity).
  destruct e; cbn [ldtyp]; try (apply (K (fun t => _ = t)); [now symmetry|]; intros op0 l0 r0 ->; cbn [lbuild] in B).
  - discriminate.
  - discriminate.
  - cbn [lbuild] in B. destruct (lbuild lm w e2) as [l'|?|?]; try discriminate. cbn [obind] in B.
    destruct (lbuild lm w e3) as [r'|?|?]; try discriminate. injection B as <-. reflexivity.
  - destruct (lbuild lm w e); discriminate.
  - destruct (lbuild lm w e) as [e2|?|?]; try discriminate. cbn [obind] in B. destruct (lbuild_index lm w i) as [i1|?|?]; try discriminate.
    cbn [obind] in B. unfold subset_vec in B. destruct (calc_ind_vector _ _ _ _); discriminate.
  - destruct (lbuild lm w e) as [e2|?|?]; try discriminate. cbn [obind] in B. destruct (lbuild_index lm w i) as [i1|?|?]; try discriminate.
    cbn [obind] in B. destruct (lbuild_index lm w j) as [j1|?|?]; try discriminate. cbn [obind] in B. unfold subset_mat in B.
    destruct (calc_ind_matrix _ _ _ _ _); discriminate.
  - destruct (fst (at_vec x i w)); discriminate.
  - destruct (fst (at_mat x i j w)); discriminate.
  - destruct (lbuild lm w e) as [e2|?|?]; try discriminate. cbn [obind] in B. destruct (fst (at_expr lm e2 i w)); discriminate.
  - destruct (lbuild lm w e) as [e2|?|?]; try discriminate. cbn [obind] in B. destruct (fst (at_mat_expr lm e2 i j w)); discriminate.
  - destruct (lbuild lm w e); discriminate.
Qed.
Print Assumptions c88_argument_type.
Example c88_argument_ex : cannot (fun _ => TInt) (LV TDouble (LBin ODiv (LVar 0) (LVar 1))) /\
  lbuild_arg ex_lm half_w (LV TDouble (LBin ODiv (LVar 0) (LVar 1))) = Done (AV TDouble half_e) /\ dtyp half_w half_e = TDouble /\
  aannot (fun _ => TInt) (LV TInt (LBin ODiv (LVar 0) (LVar 1))) /\ styp half_w half_e = TInt.
Proof. split; [cbn; auto|]. split; [reflexivity|]. split; [reflexivity|]. split; [cbn; auto|vm_compute; reflexivity]. Qed.

(** Whole programs.  When a program states the types the compiler finds, then
    in everything it starts, in loops, blocks and after exceptions too, the
    stated types are those of the vectors at that moment. *)
Theorem c88_program : forall N lm s L V G w s' w', incl V L -> SpecLang.scoped L V s -> annot G s ->
  cells_typed w -> has_types G V w -> reach N lm s w s' w' ->
  (forall t e e', In (t, e) (uses s') -> lbuild lm w' e = Done e' -> t = styp w' e') /\
  (forall c t e e', In (c, LV t e) (calls s') -> lbuild lm w' e = Done e' -> t = if c : bool then dtyp w' e' else styp w' e').
Proof.
  intros N lm s L V G w s' w' I S A C H R.
  assert (Gd : good V G (fun o => sty (ob w o))) by exact H.
  destruct (reach_typed N lm s w s' w' R L V G _ I S A Gd (conj (proj2 (ct_nothing w) C) (fun _ => eq_refl))) as [L1 [V1 [G1 [T1 [I1 [S1 [A1 [Gd1 [C1 Y1]]]]]]]]]. apply ct_nothing in C1.
  assert (H1 : has_types G1 V1 w') by (eapply good_has; eauto).
  assert (X : forall e, eannot G1 e -> incl (lvars e) V1 -> forall t e0 e', In (t, e0) (subscripts e) -> lbuild lm w' e0 = Done e' -> t = styp w' e').
  { intros e Ae Ie t e0 e' J B. destruct (proj1 (subs_ok G1 V1) e Ae Ie t e0 J) as [-> Iv]. symmetry. eapply c88_static_type; eauto. }
  assert (Xi : forall i, iannot G1 i -> incl (lvars_i i) V1 -> forall t e0 e', In (t, e0) (subscripts_i i) -> lbuild lm w' e0 = Done e' -> t = styp w' e').
  { intros i Ai Ii t e0 e' J B. destruct (proj2 (subs_ok G1 V1) i Ai Ii t e0 J) as [-> Iv]. symmetry. eapply c88_static_type; eauto. }
  assert (Xa : forall a, aannot G1 a \/ cannot G1 a -> incl (avars a) V1 -> forall t e0 e', In (t, e0) (asubs a) -> lbuild lm w' e0 = Done e' -> t = styp w' e').
  { intros [v|u e] Aa Ia t e0 e' J B; [destruct J|]. eapply (X e); eauto. destruct Aa as [[_ Aa]|[_ Aa]]; exact Aa. }
  assert (Ia : forall a b, incl (a ++ b) V1 -> incl a V1 /\ incl b V1).
  { intros a b J. split; intros y Hy; apply J, in_or_app; auto. }
  assert (Xm : forall m, mannot G1 m -> incl (mvars m) V1 ->
    (forall t e e', In (t, e) (msubs m) -> lbuild lm w' e = Done e' -> t = styp w' e') /\
    (forall c t e e', In (c, LV t e) (margs m) -> lbuild lm w' e = Done e' -> t = if c : bool then dtyp w' e' else styp w' e')).
  { assert (Y : forall a t e e', aannot G1 a -> incl (avars a) V1 -> LV t e = a -> lbuild lm w' e = Done e' -> t = styp w' e').
    { intros a t e e' Aa Iv <- B. apply (c88_argument_type lm w' G1 V1 (LV t e) t e' C1 H1 Iv); [|exact Aa]. cbn [lbuild_arg]. now rewrite B. }
    intros [vt a|a b|a b|args|a b c|inf e|a] Am Im; cbn [mannot mvars msubs margs] in *.
    - split; [intros t e e' J; (eapply Xa; [| |exact J]; auto)|]. intros c t e e' [[= <- ->]|[]] B. eapply Y; eauto.
    - destruct Am as [A2 A3]. destruct (Ia _ _ Im) as [I2 I3]. split.
      + intros t e e' J. apply in_app_or in J. destruct J as [J|J]; (eapply Xa; [| |exact J]; auto).
      + intros c t e e' [[= <- ->]|[[= <- ->]|[]]] B; (eapply Y; [| |reflexivity|exact B]; auto).
    - destruct Am as [A2 A3]. destruct (Ia _ _ Im) as [I2 I3]. split.
      + intros t e e' J. apply in_app_or in J. destruct J as [J|J]; (eapply Xa; [| |exact J]; auto).
      + intros c t e e' [[= <- ->]|[[= <- ->]|[]]] B; (eapply Y; [| |reflexivity|exact B]; auto).
    - assert (Q : forall a, In a args -> cannot G1 a /\ incl (avars a) V1).
      { intros a Ha. split; [rewrite Forall_forall in Am; now apply Am|]. intros y Hy. apply Im, in_flat_map. eauto. }
      split.
      + intros t e e' J. apply in_flat_map in J. destruct J as [a [Ha J]]. destruct (Q a Ha). (eapply Xa; [| |exact J]; auto).
      + intros c t e e' J B. apply in_map_iff in J. destruct J as [a [[= <- ->] Ha]]. destruct (Q _ Ha) as [Q1 Q2].
        apply (c88_argument_type lm w' G1 V1 (LV t e) t e' C1 H1 Q2); [|exact Q1]. cbn [lbuild_arg]. now rewrite B.
    - destruct Am as [A2 [A3 A4]]. destruct (Ia _ _ Im) as [I2 I3']. destruct (Ia _ _ I3') as [I3 I4]. split.
      + intros t e e' J. apply in_app_or in J. destruct J as [J|J]; [|apply in_app_or in J; destruct J as [J|J]]; (eapply Xa; [| |exact J]; auto).
      + intros d t e e' [[= <- ->]|[[= <- ->]|[[= <- ->]|[]]]] B; (eapply Y; [| |reflexivity|exact B]; auto).
    - split; [intros t e0 e' J; eapply X; eauto|]. intros c t e0 e' [].
    - split; [intros t e e' J; (eapply Xa; [| |exact J]; auto)|]. intros c t e e' [[= <- ->]|[]] B. eapply Y; eauto. }
  destruct s' as [|x e|x v|s0 x i sm e|x i v|s0 x i j sm e|x i j v|x k v|x i v|x i j v|x v|x n|a b|c a b|c a|e body|col m body|x s0 t0 m body|x t0 e body|x t0 n body|a b];
    cbn [SpecLang.scoped annot uses calls] in *; (split; [|try (intros c0 t1 e1 e1' []; fail)]); try (intros t1 e1 e1' []; fail).
  - intros t1 e1 e1' J. eapply X; [exact A1|apply S1|exact J].
  - intros t1 e1 e1' J. destruct S1 as [_ [_ [Si Se]]], A1. apply in_app_or in J. destruct J as [J|J]; [eapply Xi|eapply X]; eauto.
  - intros t1 e1 e1' J. eapply Xi; [exact A1|apply S1|exact J].
  - intros t1 e1 e1' J. destruct S1 as [_ [_ [Si [Sj Se]]]], A1 as [Ai [Aj Ae]]. apply in_app_or in J.
    destruct J as [J|J]; [|apply in_app_or in J; destruct J as [J|J]]; [eapply (Xi i)|eapply (Xi j)|eapply X]; eauto.
  - intros t1 e1 e1' J. destruct S1 as [_ [Si Sj]], A1 as [Ai Aj]. apply in_app_or in J. destruct J as [J|J]; [eapply (Xi i)|eapply (Xi j)]; eauto.
  - intros t1 e1 e1' J. eapply X; [apply A1|apply S1|exact J].
  - intros t1 e1 e1' J. eapply X; [apply A1|apply S1|exact J].
  - intros t1 e1 e1' J. eapply X; [apply A1|apply S1|exact J].
  - apply Xm; [apply A1|apply S1].
  - apply Xm; [apply A1|apply S1].
  - apply Xm; [apply A1|apply S1].
  - apply Xm; [apply A1|apply S1].
  - intros t1 e1 e1' J. eapply X; [apply A1|apply S1|exact J].
Qed.
Print Assumptions c88_program.

(** A subscript inside a block with its own vector, in a loop. *)
Definition ex_body : lstmt := LSubScalar 0 (LXV TBool (LVar 2)) (VI 7).
Definition ex_typed_prog : lstmt :=
  LFor 7 (LMColon (LS (VI 1)) (LS (VI 2))) (fun _ => LDecl 2 TBool (LBin OGt (LVar 0) (LLit (VI 1))) ex_body).
Example c88_program_ex : annot (fun _ => TDouble) ex_typed_prog /\ SpecLang.scoped [0; 1]%nat [0; 1]%nat ex_typed_prog /\
  cells_typed ex_w /\ has_types (fun _ => TDouble) [0; 1]%nat ex_w /\
  exists w', reach 5 ex_lm ex_typed_prog ex_w ex_body w' /\ In (TBool, LVar 2) (uses ex_body) /\ sty (ob w' (OD 2)) = TBool.
Proof.
  split; [cbn; auto|]. split; [cbn; unfold incl; cbn; intuition congruence|]. split; [apply ex_typed|].
  split; [intros x [<- |[<- |[]]]; vm_compute; auto|].
  eexists. split; [|split].
  - eapply r_for with (vs := [VI 1]) (v := VI 2) (rest := []); [vm_compute; reflexivity|vm_compute; reflexivity|vm_compute; reflexivity|].
    eapply r_decl; [reflexivity|vm_compute; reflexivity|apply r_here].
  - now left.
  - reflexivity.
Qed.
