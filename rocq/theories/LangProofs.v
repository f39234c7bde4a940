(** Memory safety of structured programs. *)
From Coq Require Import String ZArith List Bool Lia.
From Verif Require Import Base Num StoreModel VecModel SubsetModel AllocModel ProgModel LangModel Spec SpecExpr SpecHist SpecProg SpecSub
  SpecAlloc SpecSafe SpecLang CapProofs CapBig StoreProofs StoreOps VecProofs VecAssign VecEval VecThms StoreThms AllocProofs2 ProgProofs LendProofs SafeProofs.
Import ListNotations.
Open Scope Z_scope.
Local Notation length := List.length (only parsing).

Scheme lexpr_ind2 := Induction for lexpr Sort Prop
  with lindex_ind2 := Induction for lindex Sort Prop.
Combined Scheme lexpr_lindex_ind from lexpr_ind2, lindex_ind2.

Lemma wrap64_range z : 0 <= wrap64 z < 2 ^ 64.
Proof. apply Z.mod_pos_bound. lia. Qed.

Section Ini.
Variable ini : mode.

(* ------------------------------------------------------------- outcomes *)

(** A value with property P, an exception, or undefined in an allowed way. *)
Definition good {A} (P : A -> Prop) (r : outcome A) : Prop :=
  match r with Done a => P a | Thrown _ => True | Undef u => allowed ini u end.

Lemma good_bind {A B} (P : A -> Prop) (Q : B -> Prop) (m : outcome A) f :
  good P m -> (forall a, P a -> good Q (f a)) -> good Q (obind m f).
Proof. destruct m; cbn; auto. Qed.
Lemma good_imp {A} (P Q : A -> Prop) r : (forall a, P a -> Q a) -> good P r -> good Q r.
Proof. destruct r; cbn; auto. Qed.
Lemma good_calm {A} (r : outcome A) : calm ini r -> good (fun _ => True) r.
Proof. intros C. destruct r as [a|e|u]; [exact I|exact I|]. now apply C. Qed.
Lemma good_tame {A} (r : outcome A) : tame r -> good (fun _ => True) r.
Proof. intros C. apply good_calm. now apply calm_tame. Qed.
Lemma good_omap {A B} (P : A -> Prop) (Q : B -> Prop) (f : A -> outcome B) l :
  Forall P l -> (forall a, P a -> good Q (f a)) -> good (Forall Q) (omap f l).
Proof.
  intros F H. induction l as [|a l IH]; cbn [omap]; [constructor|]. inversion F; subst.
  eapply good_bind; [now apply H|]. intros b Hb. eapply good_bind; [now apply IH|]. intros bs Hbs. cbn. now constructor.
Qed.

Lemma good_int z : good (fun _ => True) (int_res z). Proof. apply good_tame, tame_int. Qed.
Lemma good_f2int f : good (fun _ => True) (f2int f).
Proof. unfold f2int. destruct (ftrunc f); [destruct (in_int _)|]; cbn; auto; apply allowed_cast. Qed.
Lemma good_f2size f : good (fun z => 0 <= z < 2 ^ 64) (f2size f).
Proof.
  unfold f2size. destruct (ftrunc f) as [z|]; [|apply allowed_cast].
  destruct ((0 <=? z) && (z <? 2 ^ 64)) eqn:E; [|apply allowed_cast]. apply andb_prop in E. destruct E as [E1 E2].
  cbn. apply Z.leb_le in E1. apply Z.ltb_lt in E2. lia.
Qed.
Lemma good_cast t v : good (fun _ => True) (cast t v). Proof. apply good_tame, tame_cast. Qed.
Lemma good_modz i n : 0 <= n -> good (fun k => 0 <= k) (modz i n).
Proof.
  intros H. unfold modz. destruct (Z.eqb_spec n 0); [|cbn; apply Z.mod_pos_bound; lia].
  left. right. now right.
Qed.
Lemma good_int_loop n : good (fun _ => True) (int_loop n).
Proof. unfold int_loop. destruct (n <=? int_max); cbn; auto. left. now left. Qed.
Lemma good_int_less1 v : good (fun _ => True) (int_less1 v).
Proof. destruct v; cbn [int_less1]; try apply good_int. eapply good_bind; [apply good_f2int|]. intros. apply good_int. Qed.
Lemma good_convert_sub f : good (fun _ => True) (convert_sub f).
Proof.
  unfold convert_sub. eapply good_bind; [apply good_f2int|]. intros _ _. destruct (flt_leb fone f); [|exact I].
  eapply good_imp; [|apply good_f2size]. auto.
Qed.
Lemma good_convert_dbl f : good (fun _ => True) (convert_dbl f).
Proof.
  unfold convert_dbl. eapply good_bind; [apply good_f2int|]. intros _ _. destruct (flt_leb fone f); [|exact I].
  eapply good_imp; [|apply good_f2size]. auto.
Qed.
Lemma good_convert_sz n : good (fun _ => True) (convert_sz n).
Proof. unfold convert_sz. destruct (1 <=? n); cbn; auto. Qed.
Lemma good_pos i : good (fun _ => True) (pos_less1 i).
Proof. destruct i; cbn [pos_less1]; [apply good_int|]. eapply good_bind; [apply good_f2int|]. intros. apply good_int. Qed.

(* ------------------------------------------------------------- positions *)

Definition is_ind (l : list Z) : Prop := Z.of_nat (length l) < 2 ^ 64 /\ Forall (fun p => 0 <= p) l.

Lemma good_store l : Forall (fun p => 0 <= p) l -> good is_ind (store_ind l).
Proof.
  intros F. unfold store_ind. cbv zeta. destruct (_ =? 0); [exact I|].
  destruct (Z.ltb_spec (wrap64 (Z.of_nat (length l))) (Z.of_nat (length l))) as [H|H]; [exact I|].
  cbn. split; [|exact F]. pose proof (wrap64_range (Z.of_nat (length l))). lia.
Qed.

Lemma iota_nonneg n : Forall (fun p => 0 <= p) (iota n).
Proof. unfold iota. apply Forall_forall. intros p H. apply in_map_iff in H. destruct H as [k [<- _]]. lia. Qed.
Lemma true_at_nonneg bs : forall i, 0 <= i -> Forall (fun p => 0 <= p) (true_at bs i).
Proof.
  induction bs as [|b bs IH]; intros i Hi; cbn [true_at]; [constructor|].
  destruct b; [constructor; [exact Hi|]|]; apply IH; lia.
Qed.
Lemma grid_nonneg nr rs cs : Forall (fun p => 0 <= p) (grid_of nr rs cs).
Proof.
  unfold grid_of. apply Forall_forall. intros p H. apply in_flat_map in H. destruct H as [c [_ H]].
  apply in_map_iff in H. destruct H as [r [<- _]]. apply wrap64_range.
Qed.
Lemma wraps_nonneg {A} (f : A -> Z) l : Forall (fun p => 0 <= p) (map (fun j => wrap64 (f j)) l).
Proof. apply Forall_forall. intros p H. apply in_map_iff in H. destruct H as [r [<- _]]. apply wrap64_range. Qed.

Definition fits_in (V : list nat) (e : expr) : Prop := incl (vars e) V /\ sizes_ok e.

(** In a fixed state in which the vectors of L exist. *)
Section Fixed.
Variables (lm : libm) (L V : list nat) (w : world).
Hypotheses (SO : sound_at ini L w) (VL : incl V L).

Lemma fits_readable e : fits_in V e -> readable ini w e.
Proof. intros [H _] y Hy. exact (proj2 (so_live _ _ _ SO y (VL y (H y Hy)))). Qed.
Lemma fits_size e : fits_in V e -> 0 <= esize w e <= 2 ^ 64.
Proof. intros [_ H]. apply esize_range; [apply SO|exact H]. Qed.
Lemma good_elem e i : fits_in V e -> 0 <= i -> good (fun _ => True) (fst (elem lm e i w)).
Proof. intros F Hi. apply good_calm, elem_calm; auto; [apply SO|now apply fits_readable|apply F]. Qed.
Lemma good_idx t e i : fits_in V e -> 0 <= i -> good (fun _ => True) (idx_at lm w t e i).
Proof. intros F Hi. unfold idx_at. eapply good_bind; [now apply good_elem|]. intros. destruct (stored e); [apply good_cast|exact I]. Qed.
Lemma good_less1 t e i : fits_in V e -> 0 <= i -> good (fun _ => True) (less1_at lm w t e i).
Proof. intros F Hi. unfold less1_at. eapply good_bind; [now apply good_idx|]. intros. apply good_int_less1. Qed.
Lemma good_all_less1 t e : fits_in V e -> good (fun _ => True) (all_less1 lm w t e).
Proof.
  intros F. eapply good_imp; [|unfold all_less1; eapply good_omap; [apply iota_nonneg|]; intros; now apply good_less1]. auto.
Qed.
Lemma good_mask_own e : fits_in V e -> good (fun _ => True) (mask_own lm w e).
Proof.
  intros F. eapply good_imp; [|unfold mask_own; apply (good_omap (fun p => 0 <= p) (fun _ => True)); [apply iota_nonneg|]].
  - auto.
  - intros i Hi. eapply good_bind; [now apply good_idx|]. intros. cbn. exact I.
Qed.
Lemma good_mask_rec e n : fits_in V e -> good (fun _ => True) (mask_rec lm w e n).
Proof.
  intros F. eapply good_imp; [|unfold mask_rec; apply (good_omap (fun p => 0 <= p) (fun _ => True)); [apply iota_nonneg|]].
  - auto.
  - intros i Hi. pose proof (fits_size e F). eapply good_bind; [apply good_modz; lia|]. intros k Hk.
    eapply good_bind; [now apply good_idx|]. intros. cbn. exact I.
Qed.
Lemma good_scan bs : forall i c d, good (fun _ => True) (mask_scan bs i c d).
Proof.
  induction bs as [|b bs IH]; intros i c d; cbn [mask_scan]; [exact I|].
  eapply good_bind; [apply good_tame, tame_modz|]. intros k _. cbv zeta. eapply good_bind; [apply IH|]. intros. cbn. exact I.
Qed.
Lemma good_positions bs d : good (fun _ => True) (positions bs d).
Proof. unfold positions. destruct (true_at bs 0); [exact I|]. apply good_scan. Qed.
Lemma good_positions_int bs d : good (fun _ => True) (positions_int bs d).
Proof. unfold positions_int. eapply good_bind; [apply good_positions|]. intros. exact I. Qed.
Lemma good_positions_ones ones bs d : good (fun _ => True) (positions_ones ones bs d).
Proof.
  unfold positions_ones. destruct (true_at ones 0); [exact I|]. eapply good_bind; [apply good_scan|]. intros ps _.
  destruct (_ <? _)%nat; exact I.
Qed.
Lemma good_mask_ones e : fits_in V e -> good (fun _ => True) (mask_ones lm w e).
Proof.
  intros F. eapply good_imp; [|unfold mask_ones; apply (good_omap (fun p => 0 <= p) (fun _ => True)); [apply iota_nonneg|]].
  - auto.
  - intros i Hi. eapply good_bind; [now apply good_idx|]. intros. cbn. exact I.
Qed.
Lemma good_all_before t e : fits_in V e -> good (fun _ => True) (all_before lm w t e).
Proof.
  intros F. eapply good_imp; [|unfold all_before; apply (good_omap (fun p => 0 <= p) (fun _ => True)); [apply iota_nonneg|]].
  - auto.
  - intros i Hi. eapply good_bind; [now apply good_idx|]. intros v _. eapply (good_bind (fun _ => True)); [|intros; exact I].
    destruct v; try exact I. apply good_f2int.
Qed.

Lemma good_size_less1 v : good (fun p => 0 <= p) (size_less1 v).
Proof.
  destruct v; cbn [size_less1]; try (eapply good_bind; [apply good_int_less1|]; intros k _; apply wrap64_range).
  eapply good_imp; [|apply good_f2size]. intros a [H _]. exact H.
Qed.
Lemma concat_nonneg ls : Forall (fun l => Forall (fun p => 0 <= p) l) ls -> Forall (fun p => 0 <= p) (List.concat ls).
Proof. induction 1; cbn [List.concat]; [constructor|]. apply Forall_app. auto. Qed.
Lemma good_size f : good (fun p => 0 <= p) (f2size f).
Proof. eapply good_imp; [|apply good_f2size]. intros a [H _]. exact H. Qed.
Lemma good_int_cols nr e rows : fits_in V e -> good (Forall (fun p => 0 <= p)) (int_cols lm w nr e rows).
Proof.
  intros F. unfold int_cols. destruct (stored e).
  - eapply good_bind; [now apply good_all_less1|]. intros cs _. apply grid_nonneg.
  - eapply good_bind.
    + apply (good_omap (fun p => 0 <= p) (fun l => Forall (fun p => 0 <= p) l)); [apply iota_nonneg|].
      intros j Hj. eapply good_bind; [now apply good_idx|]. intros v _.
      apply (good_omap (fun _ => True) (fun p => 0 <= p)); [now apply Forall_forall|]. intros i _. apply good_size.
    + intros ls Hl. cbn. now apply concat_nonneg.
Qed.
Lemma good_int_rows nr e cols : fits_in V e -> good (Forall (fun p => 0 <= p)) (int_rows lm w nr e cols).
Proof.
  intros F. unfold int_rows. destruct (stored e).
  - eapply good_bind; [now apply good_all_less1|]. intros cs _. apply grid_nonneg.
  - eapply good_bind.
    + apply (good_omap (fun _ => True) (fun l => Forall (fun p => 0 <= p) l)); [now apply Forall_forall|].
      intros c _. apply (good_omap (fun p => 0 <= p) (fun p => 0 <= p)); [apply iota_nonneg|].
      intros j Hj. eapply good_bind; [now apply good_idx|]. intros v _. apply good_size.
    + intros ls Hl. cbn. now apply concat_nonneg.
Qed.

Definition ind_fits (i : index) : Prop := match i with IV _ e => fits_in V e | _ => True end.

Lemma good_ind_vector n i : ind_fits i -> good is_ind (calc_ind_vector lm w n i).
Proof.
  intros F. destruct i as [[|]|z|f|[| |] e]; cbn [calc_ind_vector ind_fits] in *.
  - apply good_store, iota_nonneg.
  - exact I.
  - eapply good_bind; [apply good_int|]. intros k _. apply good_store. constructor; [apply wrap64_range|constructor].
  - eapply good_bind; [apply good_convert_sub|]. intros k _. apply good_store. constructor; [apply wrap64_range|constructor].
  - eapply good_bind.
    + pose proof (fits_size e F). apply (good_omap (fun p => 0 <= p) (fun _ => True)); [apply iota_nonneg|].
      intros i Hi. eapply good_bind; [apply good_modz; lia|]. intros k Hk. eapply good_bind; [now apply good_idx|]. intros. exact I.
    + intros bs _. apply good_store, true_at_nonneg. lia.
  - eapply good_bind.
    + apply (good_omap (fun p => 0 <= p) (fun p => 0 <= p)); [apply iota_nonneg|].
      intros i Hi. eapply good_bind; [now apply good_idx|]. intros v _. apply good_size_less1.
    + intros l Hl. now apply good_store.
  - eapply good_bind.
    + apply (good_omap (fun p => 0 <= p) (fun p => 0 <= p)); [apply iota_nonneg|].
      intros i Hi. eapply good_bind; [now apply good_idx|]. intros v _. eapply good_bind; [apply good_f2size|]. intros k _. apply wrap64_range.
    + intros l Hl. now apply good_store.
Qed.

Lemma good_dim pick e : good (fun _ => True) (edim pick w e).
Proof.
  induction e; cbn [edim]; auto; try exact I.
  destruct (is_sca e1); [exact IHe2|]. destruct (is_sca e2); [exact IHe1|].
  destruct (eim w e1 && eim w e2).
  - eapply good_bind; [exact IHe1|]. intros. eapply good_bind; [exact IHe2|]. intros. exact I.
  - destruct (negb (eim w e1) && eim w e2); [exact IHe2|]. destruct (eim w e1 && negb (eim w e2)); [exact IHe1|exact I].
Qed.

Lemma good_ind_matrix e i j : ind_fits i -> ind_fits j -> good (fun p => is_ind (fst p)) (calc_ind_matrix lm w e i j).
Proof.
  intros Fi Fj. unfold calc_ind_matrix. destruct (negb (eim w e)); [exact I|].
  eapply good_bind; [apply good_dim|]. intros nr _. eapply good_bind; [apply good_dim|]. intros nc _. cbv zeta.
  destruct i as [b|z|f|[| |] er]; destruct j as [b'|z'|f'|[| |] ec]; cbn [ind_fits] in *;
  repeat first
    [ exact I
    | match goal with |- good _ (if ?b then _ else _) => destruct b end
    | match goal with |- good _ (match true_at ?a ?b with _ => _ end) => destruct (true_at a b) end
    | match goal with |- good _ (obind (store_ind _) _) =>
        eapply (good_bind is_ind); [apply good_store; first [apply iota_nonneg|apply grid_nonneg|apply wraps_nonneg|assumption|
          constructor; [apply wrap64_range|constructor]]|intros ? ?; cbn; assumption] end
    | match goal with |- good _ (obind (omap (fun _ => obind (int_res _) _) _) _) =>
        eapply (good_bind (Forall (fun p => 0 <= p))); [eapply good_omap; [apply iota_nonneg|];
          intros; eapply good_bind; [apply good_int|intros; apply wrap64_range]|intros ? ?] end
    | match goal with |- good _ (obind (omap (fun _ => obind (f2size _) _) _) _) =>
        eapply (good_bind (Forall (fun p => 0 <= p))); [eapply good_omap; [apply iota_nonneg|];
          intros; eapply good_bind; [apply good_f2size|intros; apply wrap64_range]|intros ? ?] end
    | match goal with |- good _ (obind (omap (fun _ => obind (convert_sz _) _) _) _) =>
        eapply (good_bind (Forall (fun p => 0 <= p))); [eapply good_omap; [apply iota_nonneg|];
          intros; eapply good_bind; [apply good_convert_sz|intros; apply wrap64_range]|intros ? ?] end
    | match goal with |- good _ (obind (omap (fun _ => obind (less1_at _ _ _ _ _) _) _) _) =>
        apply (good_bind (Forall (fun p => 0 <= p))); [apply (good_omap (fun p => 0 <= p) (fun p => 0 <= p)); [apply iota_nonneg|];
          intros; eapply good_bind; [now apply good_less1|intros; eapply good_imp; [|apply good_f2size]; intros ? [? _]; assumption]|intros ? ?] end
    | match goal with |- good _ (obind (int_cols _ _ _ _ _) _) =>
        apply (good_bind (Forall (fun p => 0 <= p))); [now apply good_int_cols|intros ? ?] end
    | match goal with |- good _ (obind (int_rows _ _ _ _ _) _) =>
        apply (good_bind (Forall (fun p => 0 <= p))); [now apply good_int_rows|intros ? ?] end
    | match goal with |- good _ (obind _ _) =>
        eapply (good_bind (fun _ => True)); [first [apply good_int|apply good_convert_dbl|apply good_convert_sz|apply good_int_loop|
          now apply good_mask_own|now apply good_mask_ones|apply good_positions_ones|now apply good_all_before|now apply good_mask_rec|apply good_positions|apply good_positions_int|now apply good_all_less1|
          eapply good_imp; [|apply good_f2size]; intros; exact I]|intros ? _] end ].
Qed.

Lemma good_subset_vec e i : fits_in V e -> ind_fits i -> good (fits_in V) (subset_vec lm w e i).
Proof.
  intros Fe Fi. unfold subset_vec. eapply good_bind; [now apply good_ind_vector|]. intros l [H1 H2]. cbn. split; [apply Fe|].
  cbn. split; [apply Fe|now split].
Qed.
Lemma good_subset_mat e i j : fits_in V e -> ind_fits i -> ind_fits j -> good (fits_in V) (subset_mat lm w e i j).
Proof.
  intros Fe Fi Fj. unfold subset_mat. eapply good_bind; [now apply good_ind_matrix|]. intros l [H1 H2]. cbn. split; [apply Fe|].
  cbn. split; [apply Fe|now split].
Qed.

Lemma good_rd x k : In x L -> 0 <= k < sz (ob w (OD x)) -> good (fun _ => True) (fst (rd (ptr (ob w (OD x))) k w)).
Proof.
  intros Hx Hk. pose proof (so_shape _ _ _ SO) as W. destruct (shape_ptr w (OD x) W) as [a P]; [lia|]. rewrite P.
  destruct (so_live _ _ _ SO x Hx) as [O Ix]. destruct (rd_calm ini w x a k W Ix P Hk) as [r [E C]]. rewrite E. cbn [fst]. now apply good_calm.
Qed.
Lemma good_at_pos x i : good (fun k => 0 <= k < sz (ob w (OD x))) (at_pos w x i).
Proof.
  unfold at_pos. eapply good_bind; [apply good_pos|]. intros k _. destruct (negb _); [exact I|].
  destruct (Z.ltb_spec k 0); [exact I|]. destruct (Z.leb_spec (sz (ob w (OD x))) k); [exact I|]. cbn. lia.
Qed.
Lemma good_at_mat_pos x i j : good (fun k => 0 <= k < sz (ob w (OD x))) (at_mat_pos w x i j).
Proof.
  unfold at_mat_pos. destruct (negb _); [exact I|]. destruct (negb _); [exact I|].
  eapply good_bind; [apply good_pos|]. intros r _. eapply good_bind; [apply good_pos|]. intros c _. cbv zeta.
  destruct (Z.leb_spec (sz (ob w (OD x))) (wrap64 (c * rows (mp (ob w (OD x))) + r))) as [Q|Q]; [exact I|]. cbn.
  split; [apply wrap64_range|exact Q].
Qed.

Lemma fst_bind_lift {A B} (P : A -> Prop) (Q : B -> Prop) (r : outcome A) (f : A -> M world B) :
  good P r -> (forall a, P a -> good Q (fst (f a w))) -> good Q (fst (bind (lift r) f w)).
Proof. destruct r as [a|e|u]; cbn; auto. Qed.

Lemma good_at_vec x i : In x L -> good (fun _ => True) (fst (at_vec x i w)).
Proof.
  intros Hx. unfold at_vec. rewrite bind_get. eapply fst_bind_lift; [apply good_at_pos|]. intros k Hk. now apply good_rd.
Qed.
Lemma good_at_mat x i j : In x L -> good (fun _ => True) (fst (at_mat x i j w)).
Proof.
  intros Hx. unfold at_mat. rewrite bind_get. eapply fst_bind_lift; [apply good_at_mat_pos|]. intros k Hk. now apply good_rd.
Qed.
Lemma good_vat e i : fits_in V e -> 0 <= i -> good (fun _ => True) (fst (vat lm e i w)).
Proof.
  intros F Hi. pose proof (good_elem e i F Hi) as G. unfold vat, bind. destruct (elem lm e i w) as [[v|x|u] w1]; exact G.
Qed.
Lemma good_at_expr e i : fits_in V e -> good (fun _ => True) (fst (at_expr lm e i w)).
Proof.
  intros F. unfold at_expr. eapply (fst_bind_lift (fun k => 0 <= k)); [|intros k Hk; now apply good_vat].
  destruct i; [apply wrap64_range|]. eapply good_bind; [apply good_f2int|]. intros. apply wrap64_range.
Qed.
Lemma good_at_mat_expr e i j : fits_in V e -> good (fun _ => True) (fst (at_mat_expr lm e i j w)).
Proof.
  intros F. unfold at_mat_expr. rewrite bind_get. destruct (eim w e); [rewrite bind_ass_true|exact I].
  eapply fst_bind_lift; [apply good_pos|]. intros r _. eapply fst_bind_lift; [apply good_pos|]. intros c _.
  eapply fst_bind_lift; [apply good_dim|]. intros nr _. cbv zeta. destruct (wrap64 _ <? _); [rewrite bind_ass_true|exact I].
  apply good_vat; [exact F|apply wrap64_range].
Qed.

Lemma good_lbuild : (forall e, incl (lvars e) V -> good (fits_in V) (lbuild lm w e)) /\
  (forall i, incl (lvars_i i) V -> good ind_fits (lbuild_index lm w i)).
Proof.
  assert (SC : forall v, fits_in V (ESca v)) by (intros v; split; [intros ? []|exact I]).
  apply lexpr_lindex_ind; cbn [lvars lvars_i lbuild lbuild_index].
  - intros x H. cbn. split; [exact H|exact I].
  - intros v _. apply SC.
  - intros op l IHl r IHr H. apply incl_app_inv in H. destruct H as [H1 H2]. eapply good_bind; [now apply IHl|]. intros l' [A1 A2].
    eapply good_bind; [now apply IHr|]. intros r' [B1 B2]. cbn. split; [cbn; now apply incl_app|now split].
  - intros op e IH H. eapply good_bind; [now apply IH|]. intros e' F. exact F.
  - intros e IH i IHi H. apply incl_app_inv in H. destruct H as [H1 H2]. eapply good_bind; [now apply IH|]. intros e' F.
    eapply good_bind; [now apply IHi|]. intros i' Fi. now apply good_subset_vec.
  - intros e IH i IHi j IHj H. apply incl_app_inv in H. destruct H as [H1 H2]. apply incl_app_inv in H2. destruct H2 as [H2 H3].
    eapply good_bind; [now apply IH|]. intros e' F.
    eapply good_bind; [now apply IHi|]. intros i' Fi. eapply good_bind; [now apply IHj|]. intros j' Fj. now apply good_subset_mat.
  - intros x i H. eapply good_bind; [apply good_at_vec; apply VL, H; now left|]. intros v _. apply SC.
  - intros x i j H. eapply good_bind; [apply good_at_mat; apply VL, H; now left|]. intros v _. apply SC.
  - intros e IH i H. eapply good_bind; [now apply IH|]. intros e' F. eapply good_bind; [now apply good_at_expr|]. intros v _. apply SC.
  - intros e IH i j H. eapply good_bind; [now apply IH|]. intros e' F. eapply good_bind; [now apply good_at_mat_expr|]. intros v _. apply SC.
  - intros e IH H. eapply good_bind; [now apply IH|]. intros e' F. apply SC.
  - intros b _. exact I.
  - intros z _. exact I.
  - intros f _. exact I.
  - intros t e IH H. eapply good_bind; [now apply IH|]. intros e' F. exact F.
Qed.

Definition arg_fits (a : arg) : Prop := match a with AS _ => True | AV _ e => fits_in V e end.
Lemma good_larg a : incl (avars a) V -> good (fun a' => arg_fits a' /\ arg_ty a' = larg_ty a) (lbuild_arg lm w a).
Proof.
  destruct a as [v|t e]; cbn [avars lbuild_arg]; intros H; [cbn; auto|].
  eapply good_bind; [now apply (proj1 good_lbuild)|]. intros e' F. cbn. auto.
Qed.
End Fixed.

(* ------------------------------------------------- computations that change no object *)

(** With the vectors of L and the objects O, the computation keeps both. *)
Definition quiet {A} (L : list nat) (O : oid -> store) (Q : A -> Prop) (m : M world A) : Prop :=
  forall w, sound_at ini L w -> ob w = O ->
    let (r, w') := m w in
    match r with
    | Done a => sound_at ini L w' /\ ob w' = O /\ Q a
    | Thrown _ => sound_at ini L w' /\ ob w' = O
    | Undef u => allowed ini u
    end.

Section Quiet.
Variables (lm : libm) (L V : list nat) (O : oid -> store).
Hypothesis VL : incl V L.
Local Notation quiet := (quiet L O).
Local Notation T := (fun _ => True).

Lemma quiet_bind {A B} (P : A -> Prop) (Q : B -> Prop) m (f : A -> M world B) :
  quiet P m -> (forall a, P a -> quiet Q (f a)) -> quiet Q (bind m f).
Proof.
  intros H K w S E. specialize (H w S E). unfold bind. destruct (m w) as [[a|e|u] w1]; auto.
  destruct H as [S1 [E1 Pa]]. apply (K a Pa w1 S1 E1).
Qed.
Lemma quiet_imp {A} (P Q : A -> Prop) m : (forall a, P a -> Q a) -> quiet P m -> quiet Q m.
Proof. intros I H w S E. specialize (H w S E). destruct (m w) as [[a|e|u] w1]; auto. destruct H as [? [? ?]]. auto. Qed.
Lemma quiet_ret {A} (Q : A -> Prop) a : Q a -> quiet Q (ret a).
Proof. intros H w S E. cbn. auto. Qed.
Lemma quiet_get : quiet (fun w => sound_at ini L w /\ ob w = O) get.
Proof. intros w S E. cbn. auto. Qed.
Lemma quiet_st o : quiet (fun s => s = O o) (st o).
Proof. intros w S E. cbn. rewrite E. auto. Qed.
Lemma quiet_lift {A} (Q : A -> Prop) r : good Q r -> quiet Q (lift r).
Proof. intros H w S E. cbn. destruct r; cbn in H; auto. Qed.
Lemma quiet_ass b m : quiet (fun _ => b = true) (ass b m).
Proof. intros w S E. unfold ass. destruct b; cbn; auto. Qed.
Lemma quiet_throw {A} (Q : A -> Prop) e : quiet Q (throw e).
Proof. intros w S E. cbn. auto. Qed.
Lemma quiet_read {A} (Q : A -> Prop) m : (forall w, sound_at ini L w -> ob w = O -> snd (m w) = w /\ good Q (fst (m w))) -> quiet Q m.
Proof.
  intros H w S E. destruct (H w S E) as [P G]. destruct (m w) as [[a|e|u] w1]; cbn in P, G; subst; auto.
Qed.
Lemma quiet_elem e i : fits_in V e -> 0 <= i -> quiet T (elem lm e i).
Proof. intros F Hi. apply quiet_read. intros w S E. split; [apply elem_pure|]. now apply (good_elem lm L V w). Qed.
Lemma quiet_set x i v : In x L -> 0 <= i -> quiet T (set_at (OD x) i v).
Proof.
  intros Hx Hi w S E. pose proof (so_shape _ _ _ S) as W. destruct (so_live _ _ _ S x Hx) as [Fx Ix].
  unfold set_at. rewrite bind_st. destruct (alloc (ob w (OD x))) eqn:A; [rewrite bind_ass_true|rewrite bind_ass_false; auto].
  destruct (Z.ltb_spec i (sz (ob w (OD x)))) as [B|B]; [rewrite bind_ass_true|rewrite bind_ass_false; auto].
  destruct (shape_ptr w (OD x) W) as [a P]; [lia|].
  destruct (at_wr_any ini w x i v W Fx) as [w' [E' [S' [O' [F' [I' _]]]]]]; [lia|].
  rewrite (at_wr_in w (OD x) a i v P A) in E' by lia. unfold wr. rewrite P, E'. split; [|rewrite O'; auto]. eapply (sound_vec ini L w w' x); auto.
Qed.
Lemma quiet_wr x i v : In x L -> 0 <= i < sz (O (OD x)) -> quiet T (wr (ptr (O (OD x))) i v).
Proof.
  intros Hx Hi w S E. pose proof (quiet_set x i v Hx ltac:(lia) w S E) as G.
  pose proof (so_shape _ _ _ S) as W. rewrite <- E in Hi. destruct (shape_ptr w (OD x) W) as [a P]; [lia|].
  unfold set_at in G. rewrite bind_st, (shape_alloc _ _ _ W P), bind_ass_true in G.
  replace (i <? sz (ob w (OD x))) with true in G by (symmetry; apply Z.ltb_lt; lia). rewrite bind_ass_true, E in G. exact G.
Qed.
Lemma quiet_forN (body : Z -> M world unit) n : forall i,
  (forall j, i <= j < i + Z.of_nat n -> quiet T (body j)) -> quiet T (forN n i body).
Proof.
  induction n as [|n IH]; intros i H; cbn [forN]; [now apply quiet_ret|].
  eapply quiet_bind; [apply H; lia|]. intros _ _. apply IH. intros j Hj. apply H. lia.
Qed.
Lemma quiet_for n (body : Z -> M world unit) : (forall j, 0 <= j < n -> quiet T (body j)) -> quiet T (for_ n body).
Proof. intros H. apply quiet_forN. intros j Hj. apply H. lia. Qed.

Lemma quiet_fill x v : In x L -> quiet T (fill (OD x) v).
Proof.
  intros Hx. unfold fill. eapply quiet_bind; [apply quiet_st|]. intros s ->.
  eapply quiet_bind; [apply quiet_lift, good_cast|]. intros v' _. apply quiet_for. intros j Hj. now apply quiet_wr.
Qed.
Lemma quiet_fill_expr x e : In x L -> fits_in V e -> quiet T (fill_expr lm (OD x) e).
Proof.
  intros Hx F. unfold fill_expr. eapply quiet_bind; [apply quiet_get|]. intros w [S E].
  eapply quiet_bind; [apply quiet_st|]. intros s ->. eapply quiet_bind; [apply quiet_ass|]. intros _ _.
  apply quiet_for. intros j Hj. eapply quiet_bind; [apply quiet_elem; [exact F|lia]|]. intros v _.
  eapply quiet_bind; [apply quiet_lift, good_cast|]. intros v' _. now apply quiet_wr.
Qed.
Lemma quiet_rep x t e n : In x L -> fits_in V e -> forall i c, 0 <= i -> 0 <= c -> quiet T (rep_loop lm x t e n i c).
Proof.
  intros Hx F. induction n as [|n IH]; intros i c Hi Hc; cbn [rep_loop]; [now apply quiet_ret|].
  eapply quiet_bind; [now apply quiet_elem|]. intros v _. eapply quiet_bind; [apply quiet_lift, good_cast|]. intros v' _.
  eapply quiet_bind; [now apply quiet_set|]. intros _ _. eapply quiet_bind; [apply quiet_get|]. intros w _. cbv zeta.
  apply IH; [lia|]. pose proof (wrap64_range (c + 1)). destruct (_ <=? _); lia.
Qed.
Lemma quiet_count {A} x (go : A -> bool) put next : In x L -> (forall a, good T (next a)) ->
  forall fuel s c, 0 <= c <= sz (O (OD x)) -> sz (O (OD x)) < Z.of_nat fuel + c -> quiet T (count_loop x go put next fuel s c).
Proof.
  intros Hx G. induction fuel as [|k IH]; intros s c Hc Hf; cbn [count_loop]; [lia|].
  destruct (go s); [|now apply quiet_ret].
  intros w S E. destruct (Z.eq_dec c (sz (O (OD x)))) as [Q|Q].
  - assert (B : exists m, set_at (OD x) c (put s) w = (Thrown (Ass m), w)).
    { unfold set_at. rewrite bind_st, E. destruct (alloc (O (OD x))); [rewrite bind_ass_true|rewrite bind_ass_false; eauto].
      replace (c <? sz (O (OD x))) with false by (symmetry; apply Z.ltb_ge; lia). rewrite bind_ass_false. eauto. }
    destruct B as [m B]. rewrite (bind_thrown _ _ _ _ _ B). auto.
  - revert w S E. change (quiet T (set_at (OD x) c (put s);; s' <- lift (next s) ;; count_loop x go put next k s' (c + 1))).
    eapply quiet_bind; [apply quiet_set; [exact Hx|lia]|]. intros _ _. eapply quiet_bind; [apply quiet_lift, G|]. intros s' _. apply IH; lia.
Qed.
Lemma quiet_coca x t args : In x L -> Forall (arg_fits V) args -> forall i, 0 <= i -> quiet T (coca_fill lm x t args i).
Proof.
  intros Hx. induction args as [|a args IH]; intros F i Hi; cbn [coca_fill]; [now apply quiet_ret|].
  inversion F as [|? ? Fa Fr]; subst. destruct a as [v|ta e].
  - eapply quiet_bind; [apply quiet_lift, good_cast|]. intros v' _. eapply quiet_bind; [now apply quiet_set|]. intros _ _.
    apply IH; [exact Fr|apply wrap64_range].
  - eapply quiet_bind; [apply quiet_get|]. intros w _. eapply quiet_bind; [|intros _ _; apply IH; [exact Fr|apply wrap64_range]].
    apply quiet_for. intros j Hj. eapply quiet_bind; [apply quiet_elem; [exact Fa|lia]|]. intros v _.
    eapply quiet_bind; [apply quiet_lift, good_cast|]. intros v' _. apply quiet_set; [exact Hx|apply wrap64_range].
Qed.
Lemma quiet_first a : arg_fits V a -> quiet T (arg_first lm a).
Proof. destruct a as [v|t e]; cbn [arg_fits arg_first]; intros F; [now apply quiet_ret|]. apply quiet_elem; [exact F|lia]. Qed.
Lemma quiet_condition c : incl (lvars c) V -> quiet T (lcondition lm c).
Proof.
  intros H. unfold lcondition, to_scalar, vat. eapply quiet_bind; [apply quiet_get|]. intros w [S E].
  eapply quiet_bind; [apply quiet_lift; apply (proj1 (good_lbuild lm L V w S VL)); exact H|]. intros e F. eapply quiet_bind; [apply quiet_elem; [exact F|lia]|]. intros v _. now apply quiet_ret.
Qed.
End Quiet.

(* ----------------------------------------------------------- new vectors *)

Lemma good_convert v : good (fun n => 0 <= n) (convert_size v).
Proof.
  destruct v as [[|]|z|d]; cbn [convert_size].
  - cbn. lia.
  - exact I.
  - destruct (Z.leb_spec 1 z); cbn; [lia|exact I].
  - eapply (good_bind (fun _ => True)); [unfold is_double_int; eapply good_bind; [apply good_f2int|]; intros; exact I|].
    intros _ _. destruct (flt_leb fone d); [|exact I]. eapply good_imp; [|apply good_f2size]. intros a [H _]. exact H.
Qed.

(** A vector as functions return it: a Buffer of the given type, with memory,
    and with an empty scratch buffer. *)
Definition crafted (w : world) (x : nat) (t : ety) : Prop :=
  kd (ob w (OD x)) = KBuffer /\ sty (ob w (OD x)) = t /\ ptr (ob w (OD x)) <> None /\ exists t', ob w (OT x) = store_default KBuffer t'.

(** What a call that makes vector x leaves. *)
Definition makes {A} (L : list nat) (x : nat) (t : ety) (r : outcome A) (w' : world) : Prop :=
  match r with
  | Done _ => sound_at ini (x :: L) w' /\ crafted w' x t
  | Thrown (Ass _) => sound_at ini L w'
  | Thrown BadAlloc => True
  | Undef u => allowed ini u
  end.

Lemma makes_bind {A B} L x t (P : A -> Prop) O m (f : A -> M world B) w : sound_at ini L w -> ob w = O -> quiet L O P m ->
  (forall a w1, sound_at ini L w1 -> ob w1 = O -> P a -> let (r, w') := f a w1 in makes L x t r w') ->
  let (r, w') := bind m f w in makes L x t r w'.
Proof.
  intros S E H K. specialize (H w S E). unfold bind. destruct (m w) as [[a|e|u] w1]; [|destruct e; [apply H|exact I]|exact H].
  destruct H as [S1 [E1 Pa]]. now apply K.
Qed.

Lemma pair_makes L w x t t' n : sound_at ini L w -> ~ In x (wrapped ini) -> ~ In x L -> 0 <= n ->
  let (r, w') := (ctor_size (OD x) t n ;; ctor_default (OT x) t') w in
  makes L x t r w' /\ (r = Done tt -> sz (ob w' (OD x)) = n).
Proof.
  intros SO NR Nx Hn. destruct (so_dead _ _ _ SO x Nx) as [U1 U2]. pose proof (so_shape _ _ _ SO) as W.
  destruct (Z.leb_spec (2 ^ 64) n) as [Big|Small].
  { unfold ctor_size. rewrite (cap115_huge n Big). cbn. split; [apply allowed_cast|discriminate]. }
  destruct (ctor_size_cases w (OD x) t n W U1 (conj Hn Small)) as [[_ [m E1]]|[[_ [E1 _]]|[[_ [E1 _]]|[_ [c [w1 [Bc [E1 [S1 [O1 H1]]]]]]]]]].
  - rewrite (bind_thrown _ _ _ _ _ E1). split; [exact SO|discriminate].
  - rewrite (bind_thrown _ _ _ _ _ E1). split; [exact I|discriminate].
  - rewrite (bind_undef _ _ _ _ _ E1). split; [apply allowed_cast|discriminate].
  - rewrite (bind_done _ _ _ _ _ E1).
    assert (T1 : same_obj w w1 (OT x)) by (apply (s1_other _ _ _ S1); congruence).
    destruct (ctor_default_done w1 (OT x) t' (s1_shape _ _ _ S1)) as [w2 [E2 [S2 [O2 H2]]]].
    { intros a Ha. destruct T1 as [T1 _]. rewrite T1 in Ha. now apply (U2 a). }
    rewrite E2. cbn [makes].
    assert (SO2 : same_obj w1 w2 (OD x)) by (apply (s1_other _ _ _ S2); congruence).
    assert (OX : ob w2 (OD x) = mkStore KBuffer t (Some (hnext (hp w))) n c true mp_none false) by (rewrite (proj1 SO2); exact O1).
    split; [split|].
    + eapply (sound_new ini L w w2 x Nx); [|apply fit_owning; [split|exact NR]| |exact SO].
      * eapply vstep_trans; eapply step1_vstep; [left; reflexivity|exact S1|right; reflexivity|exact S2].
      * now rewrite OX.
      * now rewrite O2.
      * eexists. eapply holds_same; eauto.
    + split; [now rewrite OX|]. split; [now rewrite OX|]. split; [rewrite OX; discriminate|]. eauto.
    + intros _. now rewrite OX.
Qed.

Lemma matrix_makes L w x t a b : sound_at ini L w -> ~ In x (wrapped ini) -> ~ In x L -> let (r, w') := vec_matrix x t a b w in makes L x t r w'.
Proof.
  intros SO NR Nx. pose proof (pair_makes L w x t t (wrap64 (a * b)) SO NR Nx (proj1 (wrap64_range _))) as G.
  unfold vec_matrix. rewrite <- bind_assoc. destruct ((ctor_size (OD x) t (wrap64 (a * b));; ctor_default (OT x) t) w) as [[[]|e|u] w1] eqn:E.
  - rewrite (bind_done _ _ _ _ _ E). destruct G as [[S1 [C0 [C1 [C2 [t' C3]]]]] _]. unfold upd. cbn [makes].
    assert (S2 : step1 w1 (set_ob w1 (OD x) (with_mp (mkMP true a b) (ob w1 (OD x)))) (OD x)) by (apply step1_mp; apply S1).
    destruct (so_live _ _ _ S1 x (or_introl eq_refl)) as [F1 I1].
    split.
    + eapply (sound_vec ini (x :: L) w1); [now left|apply lstep_data; [exact S2|right; rewrite ob_set_same; split; reflexivity]| | |exact S1].
      * eapply fit_shape; [apply ob_set_same|now apply ob_set_other|reflexivity|exact F1].
      * intros Ei. destruct (I1 Ei) as [l Hl]. exists l. now apply holds_mp.
    + split; [rewrite ob_set_same; exact C0|]. split; [rewrite ob_set_same; exact C1|]. split; [rewrite ob_set_same; exact C2|]. exists t'. rewrite ob_set_other by discriminate. exact C3.
  - rewrite (bind_thrown _ _ _ _ _ E). apply G.
  - rewrite (bind_undef _ _ _ _ _ E). apply G.
Qed.

(** The end of a vector. *)
Lemma sound_pop L w x : sound_at ini (x :: L) w -> ~ In x L -> exists w', vec_end x w = (Done tt, w') /\ sound_at ini L w'.
Proof.
  intros SO Nx. destruct (so_live _ _ _ SO x (or_introl eq_refl)) as [Ow _].
  destruct (fit_end ini w x (so_shape _ _ _ SO) Ow) as [w' [E [V' [U1 U2]]]]. exists w'. split; [exact E|].
  pose proof (sound_gone ini (x :: L) w w' x V' U1 U2 SO) as G. cbn [filter] in G. rewrite Nat.eqb_refl in G. cbn [negb] in G.
  replace (filter (fun y => negb (Nat.eqb x y)) L) with L in G; [exact G|].
  clear -Nx. induction L as [|y L IH]; [reflexivity|]. cbn [filter].
  assert (N : x <> y) by (intros ->; apply Nx; now left). replace (Nat.eqb x y) with false by (symmetry; now apply Nat.eqb_neq).
  cbn [negb]. rewrite <- IH; [reflexivity|]. intros Q. apply Nx. now right.
Qed.

Lemma built_makes L x t (Q : unit -> Prop) m w : sound_at ini (x :: L) w -> ~ In x L -> crafted w x t -> quiet (x :: L) (ob w) Q m ->
  let (r, w') := built x m w in makes L x t r w'.
Proof.
  intros S Nx C H. specialize (H w S eq_refl). unfold built. destruct (m w) as [[[]|e|u] w1]; [| |exact H].
  - destruct H as [S1 [E1 _]]. split; [exact S1|]. unfold crafted in *. now rewrite E1.
  - destruct H as [S1 E1]. destruct (sound_pop L w1 x S1 Nx) as [w2 [E2 S2]]. rewrite (bind_done _ _ _ _ _ E2). cbn. destruct e; [exact S2|exact I].
Qed.

(** A vector of n elements, filled. *)
Lemma sized_built_makes L x t n (Q : unit -> Prop) m w : sound_at ini L w -> ~ In x (wrapped ini) -> ~ In x L -> 0 <= n ->
  (forall O, sz (O (OD x)) = n -> quiet (x :: L) O Q m) ->
  let (r, w') := (vec_sized x t n ;; built x m) w in makes L x t r w'.
Proof.
  intros S NR Nx Hn H. pose proof (pair_makes L w x t t n S NR Nx Hn) as G. fold (vec_sized x t n) in G.
  destruct (vec_sized x t n w) as [[[]|e|u] w1] eqn:E.
  - rewrite (bind_done _ _ _ _ _ E). destruct G as [[S1 C1] Z1]. apply (built_makes L x t Q); auto.
  - rewrite (bind_thrown _ _ _ _ _ E). destruct e; apply G.
  - rewrite (bind_undef _ _ _ _ _ E). apply G.
Qed.

Section Makers.
Variables (lm : libm) (L V : list nat) (x : nat).
Hypotheses (VL : incl V L) (NR : ~ In x (wrapped ini)) (Nx : ~ In x L).

Lemma VxL : incl V (x :: L). Proof. intros y Hy. right. auto. Qed.

Lemma rvec_makes w vt v : sound_at ini L w -> let (r, w') := create_rvec x vt v w in makes L x TDouble r w'.
Proof.
  intros S. unfold create_rvec. eapply (makes_bind L x TDouble _ (ob w)); [exact S|reflexivity|apply quiet_lift, good_convert|].
  intros n w1 S1 E1 Hn. eapply (makes_bind L x TDouble _ (ob w)); [exact S1|exact E1|apply quiet_ass|]. intros _ w2 S2 E2 _.
  pose proof (pair_makes L w2 x TDouble vt n S2 NR Nx Hn) as G. destruct ((_ ;; _) w2) as [r w']. apply G.
Qed.
Lemma vector_makes w vt a : sound_at ini L w -> arg_fits V a -> let (r, w') := vector_fn lm x vt a w in makes L x TDouble r w'.
Proof.
  intros S F. destruct a as [v|t e]; cbn [vector_fn arg_fits] in *; [now apply rvec_makes|].
  rewrite bind_get. eapply (makes_bind L x TDouble _ (ob w)); [exact S|reflexivity|apply quiet_ass|]. intros _ w1 S1 E1 _.
  eapply (makes_bind L x TDouble _ (ob w)); [exact S1|exact E1|apply (quiet_elem lm L V); auto; lia|]. intros v w2 S2 E2 _. now apply rvec_makes.
Qed.

Lemma rep_makes w i n : sound_at ini L w -> arg_fits V i -> arg_fits V n -> let (r, w') := rep_fn lm x i n w in makes L x (arg_ty i) r w'.
Proof.
  intros S Fi Fn. unfold rep_fn.
  eapply (makes_bind L x _ _ (ob w)); [exact S|reflexivity|apply (quiet_first lm L V); auto|]. intros v w1 S1 E1 _.
  eapply (makes_bind L x _ _ (ob w)); [exact S1|exact E1|apply quiet_lift, good_convert|]. intros k w2 S2 E2 Hk.
  destruct i as [u|t e]; cbn [arg_fits arg_ty] in *.
  - apply (sized_built_makes L x _ k (fun _ => True)); auto. intros O _. apply quiet_fill. now left.
  - rewrite bind_get. cbv zeta. apply (sized_built_makes L x _ _ (fun _ => True)); auto; [apply wrap64_range|].
    intros O _. apply (quiet_rep lm (x :: L) V); auto using VxL; try lia. now left.
Qed.

Lemma colon_int_makes w a b : sound_at ini L w -> let (r, w') := colon_int x a b w in makes L x TInt r w'.
Proof.
  intros S. unfold colon_int. cbv zeta.
  eapply (makes_bind L x _ _ (ob w)); [exact S|reflexivity|apply quiet_lift, good_int|]. intros d w1 S1 E1 _.
  eapply (makes_bind L x _ _ (ob w)); [exact S1|exact E1|apply quiet_lift, good_int|]. intros d1 w2 S2 E2 _.
  eapply (makes_bind L x _ _ (ob w)); [exact S2|exact E2|apply quiet_lift, good_convert|]. intros n w3 S3 E3 Hn.
  cbn beta in Hn. apply (sized_built_makes L x _ _ (fun _ => True)); auto. intros O Hz.
  destruct (a <? b); (apply quiet_count; [now left|intros; apply good_int|lia|lia]).
Qed.
Lemma colon_dbl_makes w a b : sound_at ini L w -> let (r, w') := colon_dbl x a b w in makes L x TDouble r w'.
Proof.
  intros S. unfold colon_dbl. cbv zeta.
  eapply (makes_bind L x _ _ (ob w)); [exact S|reflexivity|apply quiet_lift, good_convert|]. intros n w3 S3 E3 Hn.
  cbn beta in Hn. apply (sized_built_makes L x _ _ (fun _ => True)); auto. intros O Hz.
  destruct (flt_ltb a b); (apply quiet_count; [now left|intros; exact I|lia|lia]).
Qed.
Lemma cast_ty t v : good (fun u => ty_of u = t) (cast t v).
Proof.
  destruct t, v; try reflexivity. cbn [cast]. eapply good_bind; [apply good_f2int|]. intros. reflexivity.
Qed.
Lemma colon_makes w a b : sound_at ini L w -> arg_fits V a -> arg_fits V b ->
  let (r, w') := colon_fn lm x a b w in makes L x (common (arg_ty a) (arg_ty b)) r w'.
Proof.
  intros S Fa Fb. unfold colon_fn. cbv zeta. set (t := common _ _).
  eapply (makes_bind L x _ _ (ob w)); [exact S|reflexivity|apply (quiet_first lm L V); auto|]. intros v w1 S1 E1 _.
  eapply (makes_bind L x _ _ (ob w)); [exact S1|exact E1|apply quiet_lift, cast_ty|]. intros v' w2 S2 E2 Hv.
  eapply (makes_bind L x _ _ (ob w)); [exact S2|exact E2|apply (quiet_first lm L V); auto|]. intros u w3 S3 E3 _.
  eapply (makes_bind L x _ _ (ob w)); [exact S3|exact E3|apply quiet_lift, cast_ty|]. intros u' w4 S4 E4 Hu.
  destruct v' as [?|p|p], u' as [?|q|q]; try exact S4; cbn [ty_of] in Hv; rewrite <- Hv.
  - now apply colon_int_makes.
  - now apply colon_dbl_makes.
Qed.

Lemma coca_size_good w args : forall s, good (fun _ => True) (coca_size w args s).
Proof.
  induction args as [|a args IH]; intros s; cbn [coca_size]; [exact I|]. destruct a as [v|t e]; [|apply IH].
  eapply good_bind; [apply good_int|]. intros. apply IH.
Qed.
Lemma coca_makes w args : sound_at ini L w -> Forall (arg_fits V) args -> let (r, w') := coca_fn lm x args w in makes L x (coca_type args) r w'.
Proof.
  intros S F. unfold coca_fn. rewrite bind_get.
  eapply (makes_bind L x _ _ (ob w)); [exact S|reflexivity|apply quiet_lift, coca_size_good|]. intros n w1 S1 E1 _. cbv zeta.
  apply (sized_built_makes L x _ _ (fun _ => True)); auto; [apply wrap64_range|]. intros O _.
  apply (quiet_coca lm (x :: L) V); auto using VxL; [now left|lia].
Qed.

Lemma matrix_fn_makes w i a b : sound_at ini L w -> arg_fits V i -> arg_fits V a -> arg_fits V b ->
  let (r, w') := matrix_fn lm x i a b w in makes L x (arg_ty i) r w'.
Proof.
  intros S Fi Fa Fb. unfold matrix_fn.
  eapply (makes_bind L x _ _ (ob w)); [exact S|reflexivity|apply (quiet_first lm L V); auto|]. intros v w1 S1 E1 _.
  eapply (makes_bind L x _ _ (ob w)); [exact S1|exact E1|apply quiet_lift, good_convert|]. intros r w2 S2 E2 _.
  eapply (makes_bind L x _ _ (ob w)); [exact S2|exact E2|apply (quiet_first lm L V); auto|]. intros u w3 S3 E3 _.
  eapply (makes_bind L x _ _ (ob w)); [exact S3|exact E3|apply quiet_lift, good_convert|]. intros c w4 S4 E4 _.
  pose proof (matrix_makes L w4 x (arg_ty i) r c S4 NR Nx) as G.
  destruct (vec_matrix x (arg_ty i) r c w4) as [[[]|e|k] w5] eqn:E.
  - rewrite (bind_done _ _ _ _ _ E). destruct G as [S5 C5]. apply (built_makes L x _ (fun _ => True)); auto.
    destruct i as [z|t e]; [apply quiet_fill; now left|]. apply (quiet_fill_expr lm (x :: L) V); auto using VxL. now left.
  - rewrite (bind_thrown _ _ _ _ _ E). destruct e; exact G.
  - rewrite (bind_undef _ _ _ _ _ E). exact G.
Qed.

Lemma test_makes w p e : sound_at ini L w -> fits_in V e -> let (r, w') := test_fn lm p x e w in makes L x TBool r w'.
Proof.
  intros S F. unfold test_fn. rewrite bind_get. pose proof (fits_size L V w S e F).
  apply (sized_built_makes L x _ _ (fun _ => True)); auto; [lia|]. intros O _. apply quiet_for. intros j Hj.
  eapply quiet_bind; [apply (quiet_elem lm (x :: L) V); auto using VxL; lia|]. intros v _. apply quiet_set; [now left|lia].
Qed.
Lemma dim_makes w a : sound_at ini L w -> let (r, w') := dim_fn x a w in makes L x TInt r w'.
Proof.
  intros S. unfold dim_fn. destruct a as [v|t e]; [exact S|]. rewrite bind_get.
  eapply (makes_bind L x _ _ (ob w)); [exact S|reflexivity|apply quiet_ass|]. intros _ w1 S1 E1 _.
  apply (sized_built_makes L x _ _ (fun _ => True)); auto; [lia|]. intros O _.
  eapply quiet_bind; [apply quiet_lift, good_dim|]. intros r _. eapply quiet_bind; [apply quiet_set; [now left|lia]|]. intros _ _.
  eapply quiet_bind; [apply quiet_lift, good_dim|]. intros c _. apply quiet_set; [now left|lia].
Qed.

Lemma larg_makes {B} t w1 w a (f : arg -> M world B) : sound_at ini L w1 -> sound_at ini L w -> incl (avars a) V ->
  (forall a', arg_fits V a' -> arg_ty a' = larg_ty a -> let (r, w') := f a' w in makes L x t r w') ->
  let (r, w') := bind (lift (lbuild_arg lm w1 a)) f w in makes L x t r w'.
Proof.
  intros S1 S H K. pose proof (good_larg lm L V w1 S1 VL a H) as G. unfold bind, lift.
  destruct (lbuild_arg lm w1 a) as [a'|e|u]; cbn in G; [destruct G as [G1 G2]; exact (K a' G1 G2)|destruct e; [exact S|exact I]|exact G].
Qed.
Lemma larg_ty_coca args args' : Forall2 (fun a a' => arg_ty a' = larg_ty a) args args' -> coca_type args' = lcoca_ty args.
Proof.
  induction 1 as [|a a' args args' E F IH]; [reflexivity|]. destruct F; cbn [coca_type lcoca_ty] in *; [exact E|]. now rewrite E, IH.
Qed.
Lemma omap_larg w args : sound_at ini L w -> incl (flat_map avars args) V ->
  good (fun args' => Forall (arg_fits V) args' /\ coca_type args' = lcoca_ty args) (omap (lbuild_arg lm w) args).
Proof.
  intros S H.
  assert (G : good (fun args' => Forall (arg_fits V) args' /\ Forall2 (fun a a' => arg_ty a' = larg_ty a) args args') (omap (lbuild_arg lm w) args)).
  { induction args as [|a args IH]; cbn [omap]; [cbn; auto|]. cbn [flat_map] in H. apply incl_app_inv in H. destruct H as [H1 H2].
    eapply good_bind; [apply (good_larg lm L V w S VL a H1)|]. intros a' [A1 A2]. eapply good_bind; [now apply IH|].
    intros bs [B1 B2]. cbn. split; constructor; auto. }
  eapply good_imp; [|exact G]. intros args' [A B]. split; [exact A|]. now apply larg_ty_coca.
Qed.

Lemma lmake_makes w m : sound_at ini L w -> incl (mvars m) V -> let (r, w') := lmake lm x m w in makes L x (lmaker_ty m) r w'.
Proof.
  intros S H. unfold lmake. rewrite bind_get. destruct m as [vt a|a b|a b|args|a b c|inf e|a]; cbn [mvars lmaker_ty] in *.
  - apply larg_makes; auto. intros a' Fa Ta. now apply vector_makes.
  - apply incl_app_inv in H. destruct H as [H1 H2]. apply larg_makes; auto. intros a' Fa Ta. apply larg_makes; auto. intros b' Fb Tb.
    rewrite <- Ta, <- Tb. now apply colon_makes.
  - apply incl_app_inv in H. destruct H as [H1 H2]. apply larg_makes; auto. intros a' Fa Ta. apply larg_makes; auto. intros b' Fb Tb.
    rewrite <- Ta. now apply rep_makes.
  - eapply (makes_bind L x _ _ (ob w)); [exact S|reflexivity|apply quiet_lift, (omap_larg w args S H)|].
    intros args' w1 S1 E1 [F1 T1]. rewrite <- T1. now apply coca_makes.
  - apply incl_app_inv in H. destruct H as [H1 H2]. apply incl_app_inv in H2. destruct H2 as [H2 H3].
    apply larg_makes; auto. intros a' Fa Ta. apply larg_makes; auto. intros b' Fb Tb. apply larg_makes; auto. intros c' Fc Tc.
    rewrite <- Ta. now apply matrix_fn_makes.
  - eapply (makes_bind L x _ _ (ob w)); [exact S|reflexivity|apply quiet_lift, (proj1 (good_lbuild lm L V w S VL)); exact H|].
    intros e' w1 S1 E1 F. now apply test_makes.
  - apply larg_makes; auto. intros a' Fa Ta. now apply dim_makes.
Qed.
End Makers.
(* ------------------------------------------------------------ statements *)

Local Notation ends := (ends_well ini).

Lemma ends_quiet {A} L (P : A -> Prop) O m (f : A -> M world bool) w : sound_at ini L w -> ob w = O -> quiet L O P m ->
  (forall a w1, sound_at ini L w1 -> ob w1 = O -> P a -> let (r, w') := f a w1 in ends L r w') ->
  let (r, w') := bind m f w in ends L r w'.
Proof.
  intros S E H K. specialize (H w S E). unfold bind. destruct (m w) as [[a|e|u] w1]; [|destruct e; [apply H|exact I]|exact H].
  destruct H as [S1 [E1 Pa]]. now apply K.
Qed.
Lemma ends_lift {A} L (P : A -> Prop) r (f : A -> M world bool) w : sound_at ini L w -> good P r ->
  (forall a, P a -> let (r, w') := f a w in ends L r w') ->
  let (r, w') := bind (lift r) f w in ends L r w'.
Proof. intros S G K. unfold bind, lift. destruct r as [a|[m|]|u]; cbn in G; [now apply K|exact S|exact I|exact G]. Qed.
Lemma ends_safely {A} L L' (m : M world A) (f : A -> M world bool) w : (let (r, w1) := m w in safely ini L L' r w1) ->
  (forall a w1, m w = (Done a, w1) -> sound_at ini L' w1 -> let (r, w') := f a w1 in ends L r w') ->
  let (r, w') := bind m f w in ends L r w'.
Proof. intros H K. unfold bind. destruct (m w) as [[a|[e|]|u] w1]; cbn [safely] in H; [now apply K|exact H|exact I|exact H]. Qed.
Lemma ends_leaves L x (B : Prop) (m : M world unit) w : sound_at ini L w -> In x L -> (let (r, w1) := m w in leaves ini B w x r w1) ->
  let (r, w') := (m ;; ret true) w in ends L r w'.
Proof.
  intros S Hx H. apply (ends_safely L L); [|intros a w1 _ S1; exact S1].
  destruct (m w) as [r w1]. eapply leaves_safely; eauto.
Qed.
Lemma ends_makes {A} L x t (m : M world A) (f : A -> M world bool) w : (let (r, w1) := m w in makes L x t r w1) ->
  (forall a w1, sound_at ini (x :: L) w1 -> crafted w1 x t -> let (r, w') := f a w1 in ends L r w') ->
  let (r, w') := bind m f w in ends L r w'.
Proof. intros H K. unfold bind. destruct (m w) as [[a|[e|]|u] w1]; cbn [makes] in H; [destruct H; now apply K|exact H|exact I|exact H]. Qed.

Lemma ends_scope L x (m : M world bool) w : ~ In x L -> (let (r, w1) := m w in ends (x :: L) r w1) -> let (r, w') := lscope x m w in ends L r w'.
Proof.
  intros Nx H. unfold lscope. destruct (m w) as [[[|]|[e|]|u] w1]; cbn [ends_well] in H.
  - destruct (sound_pop L w1 x H Nx) as [w2 [E2 S2]]. rewrite (bind_done _ _ _ _ _ E2). exact S2.
  - destruct H as [L' [I' S']]. exists L'. split; [|exact S']. intros y Hy. apply I'. now right.
  - destruct (sound_pop L w1 x H Nx) as [w2 [E2 S2]]. rewrite (bind_done _ _ _ _ _ E2). exact S2.
  - exact I.
  - exact H.
Qed.
Lemma ends_andthen L (a b : M world bool) w : (let (r, w1) := a w in ends L r w1) ->
  (forall w1, sound_at ini L w1 -> let (r, w') := b w1 in ends L r w') -> let (r, w') := andthen a b w in ends L r w'.
Proof.
  intros H K. unfold andthen, bind. destruct (a w) as [[[|]|[e|]|u] w1]; cbn [ends_well] in H; [now apply K|exact H|exact H|exact I|exact H].
Qed.
Lemma ends_rounds L (c b : M world bool) : (forall w, sound_at ini L w -> quiet L (ob w) (fun _ => True) c) ->
  (forall w, sound_at ini L w -> let (r, w') := b w in ends L r w') ->
  forall k w, sound_at ini L w -> let (r, w') := rounds_of k c b w in ends L r w'.
Proof.
  intros Hc Hb. induction k as [|k IH]; intros w S; cbn [rounds_of]; [exists L; split; [apply incl_refl|exact S]|].
  eapply (ends_quiet L (fun _ => True) (ob w)); [exact S|reflexivity|now apply Hc|]. intros [|] w1 S1 _ _; [|exact S1].
  apply ends_andthen; [now apply Hb|exact IH].
Qed.
Lemma ends_each L vs (body : val -> M world bool) : (forall v w, sound_at ini L w -> let (r, w') := body v w in ends L r w') ->
  forall w, sound_at ini L w -> let (r, w') := each vs body w in ends L r w'.
Proof.
  intros H. induction vs as [|v vs IH]; intros w S; cbn [each]; [exact S|]. apply ends_andthen; [now apply H|exact IH].
Qed.

(** Vec x = m: the elements of the r-value s pass to x. *)
Lemma steal_sound L w x s t : sound_at ini (s :: L) w -> ~ In x (wrapped ini) -> crafted w s t -> ~ In x L -> ~ In s L -> x <> s ->
  exists w', (vec_steal x s t ;; vec_end s) w = (Done tt, w') /\ sound_at ini (x :: L) w'.
Proof.
  intros S NR [C0 [C1 [C2 [t' C3]]]] Nx Ns Ne. destruct (so_live _ _ _ S s (or_introl eq_refl)) as [Fs Is].
  assert (Os : owning w s) by (split; [exact C0|apply Fs]).
  destruct (so_dead _ _ _ S x) as [U1 U2]; [intros [Q|Q]; congruence|].
  destruct (steal_end_gen w x s t t' (so_shape _ _ _ S) Ne U1 U2 Os C2 C1 C3) as [w' [E [W [Lm [H [Ow [_ [_ [_ [V1 [V2 [NL Oth]]]]]]]]]]]].
  exists w'. split; [exact E|]. destruct S as [A B C D F G]. split.
  - exact W.
  - now rewrite Lm.
  - intros y [<-|Hy].
    + split; [now apply fit_owning|]. intros Ei. destruct (Is Ei) as [l Hl]. exists l. auto.
    + assert (y <> x /\ y <> s) as [N1 N2] by (split; congruence). destruct (C y (or_intror Hy)) as [Fy Iy]. split.
      * eapply fit_same; [apply Oth; congruence| |exact Fy]. apply Oth; congruence.
      * eapply inited_same; [apply Oth; congruence|exact Iy].
  - intros y Hy. assert (y <> x) by (intros ->; apply Hy; now left). assert (~ In y L) by (intros Q; apply Hy; now right).
    destruct (Nat.eq_dec y s) as [->|N]; [now split|]. destruct (D y) as [D1 D2]; [intros [Q|Q]; congruence|].
    split; (eapply unborn_same; [apply Oth; congruence|assumption]).
  - now apply NL.
  - apply (ext_there _ w); [|exact G]. now rewrite Lm.
Qed.

Lemma vec_write_leaves w L x k v : sound_at ini L w -> In x L -> 0 <= k < sz (ob w (OD x)) ->
  let (r, w') := wr (ptr (ob w (OD x))) k v w in safely ini L L r w'.
Proof.
  intros S Hx Hk. pose proof (quiet_wr L (ob w) x k v Hx Hk w S eq_refl) as G.
  destruct (wr (ptr (ob w (OD x))) k v w) as [[a|[e|]|u] w1]; cbn [safely]; try apply G. exact I.
Qed.

Lemma resize_safely L w x n : written ini = false -> ~ In x (wrapped ini) -> sound_at ini L w -> In x L -> n <= 2 ^ 64 ->
  let (r, w') := any_resize (OD x) n w in safely ini L L r w'.
Proof.
  intros Ei NR S Hx Hn. destruct (so_live _ _ _ S x Hx) as [[K2 F] _]. pose proof (so_shape _ _ _ S) as W.
  destruct F as [[K1 _]|F].
  - unfold any_resize. rewrite bind_st, K1.
    destruct (resize_cases w (OD x) n W K1 Hn) as
      [c w1 E1 N C Bc RP|m E1 _|m E1 _ _ _|w1 E1 _ _ Oth _ _ _ _|w1 E1 _]; rewrite E1; cbn [safely]; auto; [|apply allowed_cast].
    destruct RP as [ST [Kt _]]. eapply (sound_vec ini L w w1 x); auto; [apply lstep_data; [exact ST|now apply kept_buffer]| |].
    + apply fit_owning; [|exact NR]. split; [exact Kt|]. destruct (s1_other _ _ _ ST (OT x)) as [Q _]; [congruence|]. now rewrite Q.
    + intros Q. congruence.
  - assert (K1 : kd (ob w (OD x)) = KBorrow) by (destruct F as [[[K _]|[_ [_ Q]]] _]; [exact K|contradiction]).
    destruct (Z.leb_spec 1 n) as [N|N].
    + rewrite (any_resize_lent ini w x n W F N (or_introl K1)). destruct (Z.leb_spec n (cap (ob w (OD x)))) as [C|C]; [|exact S].
      destruct (lent_sized ini w x n W K2 F) as [ST [F' I']]; [lia|]. cbn [safely].
      eapply (sound_vec ini L w _ x); auto. apply lstep_data; [exact ST|right; rewrite ob_set_same; split; reflexivity].
    + unfold any_resize. rewrite bind_st, K1. unfold borrow_resize.
      replace (1 <=? n) with false by (symmetry; apply Z.leb_gt; lia). rewrite bind_ass_false. exact S.
Qed.

Lemma lrun_ends N lm s : forall L V w, incl V L -> scoped L V s -> (written ini = true -> writes_all s) -> keeps (wrapped ini) s -> sound_at ini L w ->
  let (r, w') := lrun N lm s w in ends L r w'.
Proof.
  induction s; intros L V w VL Sc Wr Kp SO; cbn [scoped writes_all keeps lrun] in *;
    pose proof (so_shape _ _ _ SO) as W; pose proof (so_lim _ _ _ SO) as Lim;
    assert (LV : forall y, In y V -> In y L /\ fit ini w y /\ inited ini w y) by (intros y Hy; split; [now apply VL|now apply (so_live _ _ _ SO), VL]);
    pose proof (good_lbuild lm L V w SO VL) as [BE BI].
  - exact SO.
  - destruct Sc as [Hx He]. destruct (LV x Hx) as [Lx [Ox Ix]]. rewrite bind_get. eapply ends_lift; [exact SO|now apply BE|]. intros e' F.
    apply (ends_leaves L x True); auto. apply assign_leaves; auto; [now apply (fits_readable L V)|apply F].
  - destruct (LV x Sc) as [Lx [Ox Ix]]. apply (ends_leaves L x True); auto. now apply scalar_leaves.
  - destruct Sc as [Hx [Ns [Hi He]]]. destruct (LV x Hx) as [Lx _]. rewrite bind_get. eapply ends_lift; [exact SO|now apply BI|]. intros i' Fi.
    eapply ends_lift; [exact SO|now apply (good_ind_vector lm L V w SO VL)|]. intros ind [_ F0]. eapply ends_lift; [exact SO|now apply BE|]. intros e' F.
    eapply (ends_safely L L); [|intros ? ? _ S1; exact S1]. apply subset_safely; auto; [|intros y Hy; apply VL, F, Hy|apply F].
    intros ->. destruct (written ini); [discriminate (Wr eq_refl)|reflexivity].
  - destruct Sc as [Hx Hi]. destruct (LV x Hx) as [Lx [Ox Ix]]. rewrite bind_get. eapply ends_lift; [exact SO|now apply BI|]. intros i' Fi.
    eapply ends_lift; [exact SO|now apply (good_ind_vector lm L V w SO VL)|]. intros ind [_ F0].
    apply (ends_leaves L x True); auto. now apply subset_scalar_leaves.
  - destruct Sc as [Hx [Ns [Hi [Hj He]]]]. destruct (LV x Hx) as [Lx _]. rewrite bind_get. eapply ends_lift; [exact SO|now apply BI|]. intros i' Fi.
    eapply ends_lift; [exact SO|now apply BI|]. intros j' Fj.
    eapply ends_lift; [exact SO|now apply (good_ind_matrix lm L V w SO VL)|]. intros p [_ F0]. eapply ends_lift; [exact SO|now apply BE|]. intros e' F.
    eapply (ends_safely L L); [|intros ? ? _ S1; exact S1]. apply subset_safely; auto; [|intros y Hy; apply VL, F, Hy|apply F].
    intros ->. destruct (written ini); [discriminate (Wr eq_refl)|reflexivity].
  - destruct Sc as [Hx [Hi Hj]]. destruct (LV x Hx) as [Lx [Ox Ix]]. rewrite bind_get. eapply ends_lift; [exact SO|now apply BI|]. intros i' Fi.
    eapply ends_lift; [exact SO|now apply BI|]. intros j' Fj.
    eapply ends_lift; [exact SO|now apply (good_ind_matrix lm L V w SO VL)|]. intros p [_ F0].
    apply (ends_leaves L x True); auto. now apply subset_scalar_leaves.
  - destruct (LV x Sc) as [Lx [Ox Ix]]. rewrite bind_get. eapply ends_lift; [exact SO|apply good_cast|]. intros v' _.
    apply (ends_leaves L x True); auto. apply element_leaves; auto. apply wrap64_range.
  - destruct (LV x Sc) as [Lx [Ox Ix]]. rewrite bind_get. eapply ends_lift; [exact SO|apply good_cast|]. intros v' _.
    unfold at_vec_set. rewrite bind_assoc, bind_get, bind_assoc. eapply ends_lift; [exact SO|apply good_at_pos|]. intros k Hk.
    eapply (ends_safely L L); [now apply vec_write_leaves|intros ? ? _ S1; exact S1].
  - destruct (LV x Sc) as [Lx [Ox Ix]]. rewrite bind_get. eapply ends_lift; [exact SO|apply good_cast|]. intros v' _.
    unfold at_mat_set. rewrite bind_assoc, bind_get, bind_assoc. eapply ends_lift; [exact SO|apply good_at_mat_pos|]. intros k Hk.
    eapply (ends_safely L L); [now apply vec_write_leaves|intros ? ? _ S1; exact S1].
  - destruct (LV x Sc) as [Lx _]. eapply (ends_quiet L (fun _ => True) (ob w)); [exact SO|reflexivity|now apply quiet_fill|]. intros _ w1 S1 _ _. exact S1.
  - destruct (LV x Sc) as [Lx _]. eapply (ends_safely L L); [|intros ? ? _ S1; exact S1]. pose proof (wrap64_range n).
    apply resize_safely; auto; [|lia]. destruct (written ini); [destruct (Wr eq_refl)|reflexivity].
  - destruct Sc as [Sa Sb]. destruct Kp as [Ka Kb]. apply ends_andthen; [eapply IHs1; eauto; intros E; apply (Wr E)|].
    intros w1 S1. eapply IHs2; eauto. intros E; apply (Wr E).
  - destruct Sc as [Hc [Sa Sb]]. destruct Kp as [Ka Kb]. eapply (ends_quiet L (fun _ => True) (ob w)); [exact SO|reflexivity|now apply (quiet_condition lm L V)|].
    intros v w1 S1 _ _. destruct (truth v); [eapply IHs1|eapply IHs2]; eauto; intros E; apply (Wr E).
  - destruct Sc as [Hc Sa]. apply (ends_rounds L); auto.
    + intros w1 S1. eapply quiet_bind; [now apply (quiet_condition lm L V)|]. intros v _. now apply quiet_ret.
    + intros w1 S1. eapply IHs; eauto.
  - destruct Sc as [Hc Sb]. eapply (ends_quiet L (fun _ => True) (ob w)); [exact SO|reflexivity|now apply (quiet_condition lm L V)|].
    intros v w1 S1 _ _. eapply H; eauto.
  - destruct Sc as [Nc [Hm Sb]]. destruct Kp as [Kc Kb]. eapply ends_makes; [now apply (lmake_makes lm L V)|]. intros _ w1 S1 C1.
    apply ends_scope; [exact Nc|]. destruct (so_live _ _ _ S1 col (or_introl eq_refl)) as [O1 I1].
    destruct (iterate_calm ini w1 col (so_shape _ _ _ S1) I1) as [r [E C]]. unfold bind. rewrite E.
    destruct r as [vs|[m1|]|u]; [|exact S1|exact I|now apply C].
    apply ends_each; [|exact S1]. intros v w2 S2. eapply (H v); eauto. intros y Hy; right; auto.
  - destruct Sc as [Ne [Nx [Ns [Et [Hm Sb]]]]]. destruct Kp as [Kx [Ks Kb]]. subst t. eapply ends_makes; [now apply (lmake_makes lm L V)|]. intros _ w1 S1 C1.
    destruct (steal_sound L w1 x s _ S1 Kx C1 Nx Ns Ne) as [w2 [E2 S2]].
    rewrite <- bind_assoc, (bind_done _ _ _ _ _ E2). apply ends_scope; [exact Nx|].
    eapply IHs; eauto. intros y [<-|Hy]; [now left|right; auto].
  - destruct Sc as [Nx [He Sb]]. destruct Kp as [Kx Kb]. rewrite bind_get. eapply ends_lift; [exact SO|now apply BE|]. intros e' F.
    eapply (ends_safely L (x :: L)); [apply declare_safely; auto; [intros y Hy; apply VL, F, Hy|apply F]|].
    intros _ w1 _ S1. apply ends_scope; [exact Nx|]. eapply IHs; eauto. intros y [<-|Hy]; [now left|right; auto].
  - destruct Sc as [Nx Sb]. destruct Kp as [Kx Kb]. eapply (ends_safely L (x :: L)); [apply sized_safely; auto; apply wrap64_range|].
    intros _ w1 _ S1. apply ends_scope; [exact Nx|]. eapply IHs; eauto. intros y [<-|Hy]; [now left|right; auto].
  - destruct Sc as [Sa Sb]. destruct Kp as [Ka Kb]. assert (G : let (r, w1) := lrun N lm s1 w in ends L r w1) by (eapply IHs1; eauto; intros E; apply (Wr E)).
    destruct (lrun N lm s1 w) as [[[|]|[m|]|u] w1]; try exact G. eapply IHs2; eauto. intros E; apply (Wr E).
Qed.
End Ini.

Lemma keeps_nil s : keeps [] s.
Proof. induction s; cbn [keeps]; auto. Qed.

(* --------------------------------------------------- programs of ProgModel *)

Scheme pexpr_ind2 := Induction for pexpr Sort Prop
  with pindex_ind2 := Induction for pindex Sort Prop.
Combined Scheme pexpr_pindex_ind from pexpr_ind2, pindex_ind2.

Section Embed.
Variable lm : libm.

Lemma of_build w : (forall e, lbuild lm w (of_pexpr e) = build lm w e) /\ (forall i, lbuild_index lm w (of_pindex i) = build_index lm w i).
Proof.
  apply pexpr_pindex_ind; cbn [of_pexpr of_pindex lbuild lbuild_index build build_index]; try reflexivity.
  - intros op l -> r ->. reflexivity.
  - intros op e ->. reflexivity.
  - intros e -> i ->. reflexivity.
  - intros t e ->. reflexivity.
Qed.
Lemma of_build_arg w a : lbuild_arg lm w (of_parg a) = build_arg lm w a.
Proof. destruct a; cbn; [reflexivity|]. now rewrite (proj1 (of_build w)). Qed.
Lemma of_make s m w : lmake lm s (of_maker m) w = make lm s m w.
Proof.
  unfold lmake, make. rewrite !bind_get. destruct m; cbn [of_maker]; rewrite ?of_build_arg; try reflexivity.
  replace (omap (lbuild_arg lm w) (map of_parg args)) with (omap (build_arg lm w) args); [reflexivity|].
  induction args as [|a args IH]; cbn [omap map]; [reflexivity|]. now rewrite of_build_arg, IH.
Qed.

(** Equal unless the first one runs out of memory. *)
Definition agree {A} (m m' : M world A) : Prop := forall w, fst (m w) <> Thrown BadAlloc -> m' w = m w.
Lemma agree_refl {A} (m : M world A) : agree m m. Proof. intros w _. reflexivity. Qed.
Lemma agree_eq {A} (m m' : M world A) : (forall w, m' w = m w) -> agree m m'. Proof. intros H w _. apply H. Qed.
Lemma agree_bind {A B} (m m' : M world A) (f f' : A -> M world B) : agree m m' -> (forall a, agree (f a) (f' a)) -> agree (bind m f) (bind m' f').
Proof.
  intros H K w N. unfold bind in *. specialize (H w).
  destruct (m w) as [[a|e|u] w1]; cbn [fst] in *.
  - rewrite H by discriminate. now apply K.
  - rewrite H; [reflexivity|]. intros Q. apply N. now injection Q as ->.
  - rewrite H by discriminate. reflexivity.
Qed.
Lemma agree_scope x m m' : agree m m' -> agree (lscope x m) (scope x m').
Proof.
  intros H w N. unfold lscope, scope in *. specialize (H w).
  destruct (m w) as [[[|]|[e|]|u] w1]; cbn [fst] in *; [| | |now destruct N|]; rewrite H by congruence; reflexivity.
Qed.
Lemma agree_andthen a a' b b' : agree a a' -> agree b b' -> agree (andthen a b) (andthen a' b').
Proof. intros H K. apply agree_bind; [exact H|]. intros [|]; [exact K|apply agree_refl]. Qed.
Lemma agree_rounds c c' b b' : agree c c' -> agree b b' -> forall k, agree (rounds_of k c b) (rounds_of k c' b').
Proof.
  intros H K. induction k as [|k IH]; cbn [rounds_of]; [apply agree_refl|]. apply agree_bind; [exact H|].
  intros [|]; [now apply agree_andthen|apply agree_refl].
Qed.
Lemma agree_each vs b b' : (forall v, agree (b v) (b' v)) -> agree (each vs b) (each vs b').
Proof. intros H. induction vs as [|v vs IH]; cbn [each]; [apply agree_refl|]. now apply agree_andthen. Qed.

Lemma of_condition c w : condition lm c w = (v <- lcondition lm (of_pexpr c) ;; ret (truth v)) w.
Proof. unfold condition, lcondition. rewrite bind_assoc, !bind_get, bind_assoc. now rewrite (proj1 (of_build w)). Qed.

Lemma of_stmt_agree N s : agree (lrun N lm (of_stmt s)) (run N lm s).
Proof.
  induction s; cbn [of_stmt lrun run].
  - apply agree_refl.
  - apply agree_eq. intros w. rewrite !bind_get. now rewrite (proj1 (of_build w)).
  - apply agree_refl.
  - apply agree_eq. intros w. rewrite !bind_get. now rewrite (proj1 (of_build w)), (proj2 (of_build w)).
  - apply agree_eq. intros w. rewrite !bind_get. now rewrite (proj2 (of_build w)).
  - apply agree_refl.
  - now apply agree_andthen.
  - assert (E : forall w, (r <- condition lm c ;; if r then run N lm s1 else run N lm s2) w =
        (v <- lcondition lm (of_pexpr c) ;; if truth v then run N lm s1 else run N lm s2) w).
    { intros w. unfold bind at 1. rewrite of_condition. unfold bind. destruct (lcondition lm (of_pexpr c) w) as [[v|e|u] w1]; reflexivity. }
    intros w Hw. rewrite E. revert w Hw. apply agree_bind; [apply agree_refl|]. intros v. destruct (truth v); assumption.
  - apply agree_rounds; [|exact IHs]. apply agree_eq. apply of_condition.
  - apply agree_bind; [apply agree_eq; intros w; symmetry; apply of_make|]. intros _. apply agree_scope.
    apply agree_bind; [apply agree_refl|]. intros vs. now apply agree_each.
  - apply agree_bind; [apply agree_eq; intros w; symmetry; apply of_make|]. intros _.
    apply agree_bind; [apply agree_refl|]. intros _. apply agree_bind; [apply agree_refl|]. intros _. now apply agree_scope.
Qed.
End Embed.
