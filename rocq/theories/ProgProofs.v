(** Proofs about structured programs: which objects a call can change, and the
    vectors a program makes. *)
From Coq Require Import ZArith List String Bool Lia.
From Verif Require Import Base Num StoreModel VecModel SubsetModel AllocModel ProgModel
  Spec SpecExpr SpecHist SpecProg SpecSub SpecAlloc SpecStmt
  StoreProofs StoreOps StoreThms StoreThms2 VecProofs VecThms VecEval SubsetProofs SubsetThms AllocProofs AllocProofs2.
Import ListNotations.
Open Scope Z_scope.
Local Notation length := List.length (only parsing).

(* ------------------------------------------------------ what a call changes *)

(** Objects outside P keep their members. *)
Definition only {A} (P : oid -> Prop) (m : M world A) : Prop :=
  forall w o, ~ P o -> ob (snd (m w)) o = ob w o.

Section Only.
Variable P : oid -> Prop.

Lemma only_bind {A B} (m : M world A) (f : A -> M world B) :
  only P m -> (forall a, only P (f a)) -> only P (bind m f).
Proof.
  intros Hm Hf w o N. unfold bind. specialize (Hm w o N). destruct (m w) as [[a|e|u] w1]; simpl in *; auto.
  rewrite (Hf a w1 o N). exact Hm.
Qed.
Lemma only_ret {A} (a : A) : only P (ret a). Proof. intros w o _. reflexivity. Qed.
Lemma only_throw {A} e : only (A := A) P (throw e). Proof. intros w o _. reflexivity. Qed.
Lemma only_undef {A} e : only (A := A) P (undef e). Proof. intros w o _. reflexivity. Qed.
Lemma only_lift {A} (a : outcome A) : only P (lift a). Proof. intros w o _. reflexivity. Qed.
Lemma only_get : only P get. Proof. intros w o _. reflexivity. Qed.
Lemma only_st x : only P (st x). Proof. intros w o _. reflexivity. Qed.
Lemma only_ass b m : only P (ass b m). Proof. intros w o _. unfold ass. now destruct b. Qed.
Lemma only_upd x f : P x -> only P (upd x f).
Proof. intros H w o N. simpl. destruct (oid_eqb_spec o x); [subst; contradiction|reflexivity]. Qed.
Lemma only_new n : only P (new_ n). Proof. intros w o _. unfold new_. now destruct (n <=? _). Qed.
Lemma only_del p : only P (del p).
Proof. intros w o _. unfold del. destruct p as [a|]; [|reflexivity]. destruct (hblk (hp w) a) as [|[] |]; reflexivity. Qed.
Lemma only_rd p i : only P (rd p i).
Proof.
  intros w o _. unfold rd. destruct p as [a|]; [|reflexivity]. destruct (hblk (hp w) a) as [|own cs|]; try reflexivity.
  destruct (_ && _); [|reflexivity]. now destruct (nth _ _ _).
Qed.
Lemma only_wr p i v : only P (wr p i v).
Proof.
  intros w o _. unfold wr, wrc. destruct p as [a|]; [|reflexivity]. destruct (hblk (hp w) a) as [|own cs|]; try reflexivity.
  now destruct (_ && _).
Qed.
Lemma only_forN n : forall i body, (forall k, only P (body k)) -> only P (forN n i body).
Proof.
  induction n as [|n IH]; intros i body Hb; simpl; [apply only_ret|]. apply only_bind; auto.
Qed.
Lemma only_for n body : (forall k, only P (body k)) -> only P (for_ n body).
Proof. apply only_forN. Qed.
End Only.

Ltac framed := repeat first
  [ assumption
  | simple apply only_ret | simple apply only_throw | simple apply only_undef | simple apply only_lift | simple apply only_get | simple apply only_st
  | simple apply only_ass | simple apply only_new | simple apply only_del | simple apply only_rd | simple apply only_wr
  | simple apply only_upd; assumption
  | simple apply only_bind; [|intro]
  | simple apply only_for; intro
  | match goal with
    | |- only _ (if ?b then _ else _) => destruct b
    | |- only _ (match ?k with KBuffer => _ | KBorrow => _ | KBorrowSEXP => _ end) => destruct k
    | |- only _ (match ?k with Some _ => _ | None => _ end) => destruct k
    end ].

Section Framed.
Variable P : oid -> Prop.

Lemma only_fill x v : only P (fill x v). Proof. unfold fill. framed. Qed.
Lemma only_resize x n : P x -> only P (resize x n).
Proof. intros H. unfold resize, init. framed; apply only_fill. Qed.
Lemma only_sexp_resize x n : P x -> only P (sexp_resize x n).
Proof. intros H. unfold sexp_resize, sexp_init. framed; apply only_fill. Qed.
Lemma only_any_resize x n : P x -> only P (any_resize x n).
Proof.
  intros H. unfold any_resize, borrow_resize. framed; auto using only_resize, only_sexp_resize.
Qed.
Lemma only_at_rd x i : only P (at_rd x i). Proof. unfold at_rd, sexp_get_at, get_at. framed. Qed.
Lemma only_at_wr x i v : only P (at_wr x i v). Proof. unfold at_wr, sexp_set_at, set_at. framed. Qed.
Lemma only_elem lm e : forall i, only P (elem lm e i).
Proof.
  induction e; intros i; cbn [elem]; framed; auto using only_at_rd.
Qed.
Lemma only_take_shape x e : P x -> only P (take_shape x e).
Proof. intros H. unfold take_shape. framed. Qed.
Lemma only_fill_temp lm x t e n : only P (fill_temp lm x t e n).
Proof. unfold fill_temp, set_at. framed; apply only_elem. Qed.
Lemma only_moveit x y : P x -> P y -> only P (moveit x y).
Proof. intros H1 H2. unfold moveit. framed. Qed.
Lemma only_sexp_moveit x y : P x -> P y -> only P (sexp_moveit x y).
Proof. intros H1 H2. unfold sexp_moveit. framed; auto using only_sexp_resize. Qed.
Lemma only_any_destroy x : P x -> only P (any_destroy x).
Proof. intros H. unfold any_destroy, destroy, sexp_destroy. framed. Qed.
Lemma only_scoped {A} x (m : M world A) : P x -> only P m -> only P (scoped x m).
Proof.
  intros H Hm w o N. unfold scoped. specialize (Hm w o N). destruct (m w) as [[a|e|u] w1]; simpl in *; auto;
    rewrite <- Hm; apply (only_bind P); auto using only_any_destroy, only_ret, only_throw.
Qed.
Lemma only_sub_wr x ind i v : only P (sub_wr x ind i v).
Proof. unfold sub_wr. framed; auto using only_at_wr. Qed.
End Framed.

(** The objects a command may change. *)
Definition touched (c : cmd) : oid -> Prop :=
  match c with
  | CAssign x _ | CScalar x _ => fun o => o = OD x \/ o = OT x
  | CElem x _ _ | CSubScalar x _ _ => fun o => o = OD x
  | CSub s x _ _ _ => fun o => o = OD x \/ o = OT s
  end.

Lemma run_cmd_only lm c : only (touched c) (run_cmd lm c).
Proof.
  destruct c; cbn [run_cmd touched].
  - unfold assign, assign_buffer, assign_borrow, assign_sexp, get_at. cbv zeta.
    framed; auto using only_resize, only_fill_temp, only_moveit, only_take_shape, only_sexp_resize, only_sexp_moveit,
      only_at_wr, only_upd, only_elem.
  - unfold assign_scalar. framed; auto using only_any_resize, only_at_wr, only_upd, only_elem.
  - framed; auto using only_at_wr.
  - unfold assign_subset, ctor_default. cbv zeta. apply only_bind; [apply only_get|]. intros w.
    apply only_bind; [apply only_upd; auto|]. intros _. apply only_scoped; [auto|]. unfold get_at.
    framed; auto using only_resize, only_fill_temp, only_any_resize, only_sub_wr, only_elem, only_upd.
  - unfold assign_subset_scalar. framed; auto using only_sub_wr.
Qed.

(* ------------------------------------------------------- Vec x = r-value *)

Lemma steal_end_gen w x s t t' : world_shape w -> x <> s -> unborn w (OD x) -> unborn w (OT x) ->
  owning w s -> ptr (ob w (OD s)) <> None -> sty (ob w (OD s)) = t -> ob w (OT s) = store_default KBuffer t' ->
  exists w', (vec_steal x s t ;; vec_end s) w = (Done tt, w') /\ world_shape w' /\ hp w' = hp w /\
    (forall l, vholds w s l -> vholds w' x l) /\ owning w' x /\ ready w' x /\ small w' x /\ sty (ob w' (OD x)) = t /\
    unborn w' (OD s) /\ unborn w' (OT s) /\ (no_leak w -> no_leak w') /\
    (forall o, o <> OD x -> o <> OT x -> o <> OD s -> o <> OT s -> same_obj w w' o).
Proof.
  intros W1 Ne D1 D2 [K1 K1'] P1 T1 O1.
  set (s1 := ob w (OD s)) in *. set (m := mp s1).
  assert (A1 : alloc s1 = true).
  { destruct (ptr s1) as [a|] eqn:P; [|congruence]. now apply (shape_alloc w (OD s) a). }
  assert (F : exists w2, bind (vec_steal x s t) (fun _ => vec_end s) w = (Done tt, w2) /\
     hp w2 = hp w /\
     ob w2 (OD x) = mkStore KBuffer t (ptr s1) (sz s1) 0 true (mat_or_none m) false /\
     ob w2 (OT x) = store_default KBuffer t /\
     ob w2 (OD s) = store_default KBuffer t /\ ob w2 (OT s) = store_default KBuffer t' /\
     forall o, o <> OD x -> o <> OT x -> o <> OD s -> o <> OT s -> ob w2 o = ob w o).
  { unfold vec_steal, ctor_steal. rewrite bind_assoc, bind_assoc, bind_upd, bind_assoc, bind_st.
    rewrite ob_set_other by congruence. fold s1. fold m.
    rewrite bind_assoc, bind_upd, bind_assoc, bind_upd, bind_assoc, bind_upd, bind_assoc, bind_upd, bind_assoc, bind_upd.
    rewrite A1.
    set (wa := set_ob _ (OD x) _).
    assert (Hwa : hp wa = hp w) by reflexivity.
    assert (Nx : (x =? s)%nat = false) by (now apply Nat.eqb_neq).
    assert (Ns : (s =? x)%nat = false) by (apply Nat.eqb_neq; congruence).
    assert (Ox : ob wa (OD x) = mkStore KBuffer t (ptr s1) (sz s1) 0 true mp_none false).
    { unfold wa. simpl. rewrite ?Nx, ?Ns, ?Nat.eqb_refl, ?Ns. reflexivity. }
    assert (Os : ob wa (OD s) = with_ptr None (with_sz 0 s1)).
    { unfold wa. simpl. rewrite ?Nx, ?Ns, ?Nat.eqb_refl, ?Ns. reflexivity. }
    assert (Oo : forall o, o <> OD x -> o <> OD s -> ob wa o = ob w o).
    { intros o N1 N2. unfold wa. now rewrite !ob_set_other by auto. }
    clearbody wa.
    assert (G : exists wb, (if ismat m then upd (OD x) (with_mp (mkMP true (rows m) (cols m))) else ret tt) wa = (Done tt, wb) /\
       hp wb = hp wa /\ ob wb (OD x) = mkStore KBuffer t (ptr s1) (sz s1) 0 true (mat_or_none m) false /\
       forall o, o <> OD x -> ob wb o = ob wa o).
    { unfold mat_or_none. destruct (ismat m).
      - eexists. split; [reflexivity|]. split; [reflexivity|]. rewrite ob_set_same, Ox. split; [reflexivity|].
        intros o N. now rewrite ob_set_other.
      - exists wa. auto. }
    destruct G as [wb [Eb [Hb [Oxb Ob]]]]. rewrite (bind_done _ _ _ _ _ Eb).
    unfold ctor_default. rewrite bind_upd.
    unfold vec_end, vec_destroy. set (wc := set_ob wb (OT x) (store_default KBuffer t)).
    assert (Oc : forall o, o <> OT x -> ob wc o = ob wb o) by (intros; unfold wc; now rewrite ob_set_other).
    assert (X1 : any_destroy (OT s) wc = (Done tt, wc)).
    { unfold any_destroy. rewrite bind_st, Oc, Ob, Oo, O1 by congruence. simpl.
      unfold destroy. rewrite bind_st, Oc, Ob, Oo, O1 by congruence. reflexivity. }
    assert (X2 : any_destroy (OD s) wc = (Done tt, wc)).
    { unfold any_destroy. rewrite bind_st, Oc, Ob, Os by congruence. simpl. rewrite K1.
      unfold destroy. rewrite bind_st, Oc, Ob, Os by congruence. reflexivity. }
    rewrite bind_assoc, (bind_done _ _ _ _ _ X1), (bind_done _ _ _ _ _ X2), bind_upd.
    eexists. split; [reflexivity|].
    split; [simpl; now rewrite Hb|].
    rewrite ob_set_other, ob_set_other, Oc, Oxb by congruence. split; [reflexivity|].
    rewrite ob_set_other, ob_set_other by congruence. unfold wc at 1. rewrite ob_set_same. split; [reflexivity|].
    rewrite ob_set_other, ob_set_same, Oc, Ob, Os by congruence. simpl. rewrite T1. split; [reflexivity|].
    rewrite Nat.eqb_refl. replace (s =? x)%nat with false by (symmetry; apply Nat.eqb_neq; congruence).
    rewrite Ob, Oo, O1 by congruence. split; [reflexivity|].
    intros o N1 N2 N3 N4. rewrite !oid_eqb_neq by auto. rewrite Ob, Oo; auto. }
  destruct F as [w2 [E2 [Hp [Ox [Otx [Os [Ots Oth]]]]]]].
  exists w2. split; [exact E2|].
  set (w1a := set_ob w (OT x) (store_default KBuffer t)).
  assert (ST : step1 w w1a (OT x)) by (apply step1_empty; auto).
  assert (Oa : forall o, o <> OT x -> ob w1a o = ob w o) by (intros; unfold w1a; now rewrite ob_set_other).
  assert (Sh1 : store_shape (hp w) (mkStore KBuffer t (ptr s1) (sz s1) 0 true (mat_or_none m) false)).
  { pose proof (ws_store _ W1 (OD s)) as Sh. fold s1 in Sh.
    unfold store_shape, owner_of in *. simpl. rewrite K1 in Sh.
    destruct (ptr s1); [|lia]. destruct Sh as [T2 [T3 [T4 [cs [T5 T6]]]]].
    split; [auto|]. split; [lia|]. split; [auto|]. exists cs. split; auto. lia. }
  destruct (handover w1a w2 (OD x) (OD s)) as [W2 [NL2 [Ow2 Us2]]].
  { apply ST. }
  { congruence. }
  { intros a Ha. rewrite Oa in Ha by congruence. now apply (D1 a). }
  { rewrite Oa by congruence. exact K1. }
  { exact Hp. }
  { now rewrite Ox. }
  { rewrite Ox, Oa by congruence. reflexivity. }
  { rewrite Ox. exact Sh1. }
  { now rewrite Os. } { now rewrite Os. } { now rewrite Os. }
  { intros o N1 N2. destruct (oid_dec o (OT x)) as [->|N3].
    - rewrite Otx. unfold w1a. now rewrite ob_set_same.
    - rewrite Oa by auto. destruct (oid_dec o (OT s)) as [->|N4]; [now rewrite Ots, O1|]. now apply Oth. }
  split; [exact W2|]. split; [exact Hp|].
  split.
  { intros l H1. apply holds_cells; [exact W2|]. apply holds_cells in H1; [|exact W1]. destruct H1 as [Sz1 C1].
    rewrite Ox. simpl. split; [exact Sz1|]. intros i Hi. rewrite <- (C1 i Hi).
    unfold cells_of. rewrite Ox, Hp. simpl. reflexivity. }
  unfold owning, ready, can_assign, small. rewrite Ox, Otx. simpl.
  split; [auto|]. split; [auto|]. split; [split; reflexivity|]. split; [reflexivity|].
  split; [exact Us2|]. split; [intros a [P _]; rewrite Ots in P; discriminate|].
  split.
  - intros NL. apply NL2. eapply step1_no_leak; [exact ST|]. exact NL.
  - intros o N1 N2 N3 N4. split; [now apply Oth|]. intros; now rewrite Hp.
Qed.

Lemma steal_end_done w x s t t' l : world_shape w -> x <> s -> unborn w (OD x) -> unborn w (OT x) ->
  owning w s -> ready w s -> sty (ob w (OD s)) = t -> ob w (OT s) = store_default KBuffer t' -> vholds w s l ->
  exists w', (vec_steal x s t ;; vec_end s) w = (Done tt, w') /\ world_shape w' /\ hlim (hp w') = hlim (hp w) /\
    vholds w' x l /\ owning w' x /\ ready w' x /\ small w' x /\ sty (ob w' (OD x)) = t /\
    unborn w' (OD s) /\ unborn w' (OT s) /\ (no_leak w -> no_leak w') /\
    (forall o, o <> OD x -> o <> OT x -> o <> OD s -> o <> OT s -> same_obj w w' o).
Proof.
  intros W Ne D1 D2 O [P _] T O1 H. destruct (steal_end_gen w x s t t' W Ne D1 D2 O P T O1) as [w' [E [A [B [C R]]]]].
  exists w'. split; [exact E|]. split; [exact A|]. split; [now rewrite B|]. split; [now apply C|exact R].
Qed.

(* -------------------------------------------------- the set of live vectors *)

Section Alive.
Variables (lim : Z) (ty : nat -> ety) (lm : libm).

Lemma alive_repr w H V rho : alive w lim ty H V rho -> repr w lim ty V rho.
Proof. now intros [R _]. Qed.

(** A vector that is not one of V comes or goes. *)
Lemma repr_other w w' V rho c : repr w lim ty V rho -> vstep w w' c -> ~ In c V -> unborn w' (OT c) ->
  repr w' lim ty V rho.
Proof.
  intros R S N U.
  assert (D : forall x, In x V -> OD x <> OD c /\ OT x <> OT c) by (intros x Hx; split; congruence).
  assert (Sd : forall x, In x V -> same_obj w w' (OD x)) by (intros x Hx; apply (vs_other _ _ _ S); [apply D; auto|congruence]).
  assert (St : forall x, In x V -> same_obj w w' (OT x)) by (intros x Hx; apply (vs_other _ _ _ S); [congruence|apply D; auto]).
  destruct R as [R1 R2 R3 R4 R5 R6 R7 R8]. split.
  - apply S.
  - now rewrite (vs_lim _ _ _ S).
  - intros x Hx. eapply holds_same; [now apply Sd|now apply R3].
  - intros x Hx. destruct (Sd x Hx) as [Ed _], (St x Hx) as [Et _]. unfold owning. rewrite Ed, Et. now apply R4.
  - intros x Hx. destruct (Sd x Hx) as [Ed _], (St x Hx) as [Et _]. unfold ready, can_assign. rewrite Ed, Et. now apply R5.
  - intros x Hx. destruct (Sd x Hx) as [Ed _], (St x Hx) as [Et _]. unfold small. rewrite Ed, Et. now apply R6.
  - intros x Hx. destruct (Sd x Hx) as [Ed _]. rewrite Ed. now apply R7.
  - intros s Hs. destruct (Nat.eq_dec s c) as [->|Nc]; [exact U|].
    destruct (vs_other _ _ _ S (OT s)) as [E _]; try congruence. intros a Ha. rewrite E in Ha. now apply (R8 s Hs a).
Qed.

Lemma repr_subset w V V' rho : repr w lim ty V' rho -> incl V V' ->
  (forall y, In y V' -> ~ In y V -> unborn w (OT y)) -> repr w lim ty V rho.
Proof.
  intros [R1 R2 R3 R4 R5 R6 R7 R8] I U. split; auto.
  intros s Hs. destruct (in_dec Nat.eq_dec s V'); auto.
Qed.

Lemma owning_kept w w' y : owning w y -> ob w' (OD y) = ob w (OD y) -> ob w' (OT y) = ob w (OT y) -> owning w' y.
Proof. unfold owning. intros O -> ->. exact O. Qed.

(** A loop's vector has been made. *)
Lemma alive_made w w' H V rho c t l m : alive w lim ty H V rho -> ~ In c (H ++ V) -> made w w' c t l m ->
  alive w' lim ty (c :: H) V rho /\ (no_leak w -> no_leak w').
Proof.
  intros [R [O U]] N M. destruct M as [S _ Hd _ Ow _ _ _ [t' T]].
  assert (Nv : ~ In c V) by (intros X; apply N; apply in_or_app; auto).
  assert (Nh : ~ In c H) by (intros X; apply N; apply in_or_app; auto).
  split; [|now apply (vstep_no_leak _ _ _ S)]. split; [|split].
  - eapply repr_other; eauto. intros a [P _]. rewrite T in P. discriminate.
  - intros y [<-|Hy]; [auto|]. assert (y <> c) by congruence. destruct (O y Hy) as [Oy Ny]. split; [|exact Ny].
    eapply owning_kept; [exact Oy| |]; apply (vs_other _ _ _ S); congruence.
  - intros y Hy. assert (y <> c) by (intros ->; apply Hy; now left).
    destruct (vs_other _ _ _ S (OD y)) as [E _]; try congruence. intros a Ha. rewrite E in Ha. revert Ha. apply U.
    intros X. apply Hy. now right.
Qed.

(** The end of a loop's vector. *)
Lemma alive_end w H V rho c : alive w lim ty (c :: H) V rho -> ~ In c (H ++ V) ->
  exists w', vec_end c w = (Done tt, w') /\ alive w' lim ty H V rho /\ (no_leak w -> no_leak w').
Proof.
  intros [R [O U]] N.
  assert (Nv : ~ In c V) by (intros X; apply N; apply in_or_app; auto).
  assert (Nh : ~ In c H) by (intros X; apply N; apply in_or_app; auto).
  destruct (vec_end_gen w c (re_shape _ _ _ _ _ R) (proj1 (O c (or_introl eq_refl)))) as [w' [E [S [_ [U1 U2]]]]].
  exists w'. split; [exact E|]. split; [|now apply (vstep_no_leak _ _ _ S)]. split; [|split].
  - eapply repr_other; eauto.
  - intros y Hy. assert (y <> c) by congruence. destruct (O y (or_intror Hy)) as [Oy Ny]. split; [|exact Ny].
    eapply owning_kept; [exact Oy| |]; apply (vs_other _ _ _ S); congruence.
  - intros y Hy. destruct (Nat.eq_dec y c) as [->|Ny]; [exact U1|].
    destruct (vs_other _ _ _ S (OD y)) as [E' _]; try congruence. intros a Ha. rewrite E' in Ha. revert Ha. apply U.
    simpl. intros [X|X]; [congruence|]. now apply Hy.
Qed.

(** The end of a local vector. *)
Lemma alive_end_var w H V rho x : alive w lim ty H (x :: V) rho -> ~ In x (H ++ V) ->
  exists w', vec_end x w = (Done tt, w') /\ alive w' lim ty H V rho /\ (no_leak w -> no_leak w').
Proof.
  intros [R [O U]] N.
  assert (Nv : ~ In x V) by (intros X; apply N; apply in_or_app; auto).
  assert (Nh : ~ In x H) by (intros X; apply N; apply in_or_app; auto).
  destruct (vec_end_gen w x (re_shape _ _ _ _ _ R) (re_own _ _ _ _ _ R x (or_introl eq_refl))) as [w' [E [S [_ [U1 U2]]]]].
  exists w'. split; [exact E|]. split; [|now apply (vstep_no_leak _ _ _ S)]. split; [|split].
  - destruct R as [R1 R2 R3 R4 R5 R6 R7 R8].
    assert (Sd : forall y, In y V -> same_obj w w' (OD y)) by (intros y Hy; apply (vs_other _ _ _ S); congruence).
    assert (St : forall y, In y V -> same_obj w w' (OT y)) by (intros y Hy; apply (vs_other _ _ _ S); congruence).
    split.
    + apply S.
    + now rewrite (vs_lim _ _ _ S).
    + intros y Hy. eapply holds_same; [now apply Sd|]. apply R3. now right.
    + intros y Hy. destruct (Sd y Hy) as [Ed _], (St y Hy) as [Et _]. unfold owning. rewrite Ed, Et. apply R4. now right.
    + intros y Hy. destruct (Sd y Hy) as [Ed _], (St y Hy) as [Et _]. unfold ready, can_assign. rewrite Ed, Et. apply R5. now right.
    + intros y Hy. destruct (Sd y Hy) as [Ed _], (St y Hy) as [Et _]. unfold small. rewrite Ed, Et. apply R6. now right.
    + intros y Hy. destruct (Sd y Hy) as [Ed _]. rewrite Ed. apply R7. now right.
    + intros y Hy. destruct (Nat.eq_dec y x) as [->|Ny]; [exact U2|].
      destruct (vs_other _ _ _ S (OT y)) as [E' _]; try congruence. intros a Ha. rewrite E' in Ha. revert Ha. apply R8.
      simpl. intros [X|X]; [congruence|]. now apply Hy.
  - intros y Hy. assert (y <> x) by congruence. destruct (O y Hy) as [Oy Ny]. split; [|intros X; apply Ny; now right].
    eapply owning_kept; [exact Oy| |]; apply (vs_other _ _ _ S); congruence.
  - intros y Hy. destruct (Nat.eq_dec y x) as [->|Ny]; [exact U1|].
    destruct (vs_other _ _ _ S (OD y)) as [E' _]; try congruence. intros a Ha. rewrite E' in Ha. revert Ha. apply U.
    intros X. apply in_app_or in X. simpl in X. apply Hy. apply in_or_app. intuition congruence.
Qed.

(** A declaration: the r-value s is made and handed over to x. *)
Lemma alive_declared w w1 H V rho x s t l m : alive w lim ty H V rho -> ~ In x (H ++ V) -> ~ In s (H ++ V) -> x <> s ->
  ty x = t -> made w w1 s t l m ->
  exists w', (vec_steal x s t ;; vec_end s) w1 = (Done tt, w') /\ alive w' lim ty H (x :: V) (setl rho x l) /\
    (no_leak w -> no_leak w').
Proof.
  intros A Nx Ns Ne Tx M.
  pose proof (alive_made _ _ _ _ _ _ _ _ _ A Ns M) as [[R1 [O1 U1]] NL1].
  destruct M as [S _ Hd _ Ow Rd Ts _ [t' T]].
  assert (Vx : ~ In x V) by (intros X; apply Nx; apply in_or_app; auto).
  assert (Hx : ~ In x H) by (intros X; apply Nx; apply in_or_app; auto).
  assert (Vs : ~ In s V) by (intros X; apply Ns; apply in_or_app; auto).
  assert (Hs : ~ In s H) by (intros X; apply Ns; apply in_or_app; auto).
  destruct (steal_end_done w1 x s t t' l) as [w2 [E [W2 [L2 [H2 [Ow2 [Rd2 [Sm2 [T2 [Us [Uts [NL2 Oth]]]]]]]]]]]]; auto.
  { apply S. }
  { apply U1. simpl. intros [X|X]; [congruence|]. now apply Nx. }
  { apply (re_temp _ _ _ _ _ R1). exact Vx. }
  exists w2. split; [exact E|]. split; [|auto].
  assert (Sd : forall y, In y V -> same_obj w1 w2 (OD y)) by (intros y Hy; apply Oth; congruence).
  assert (St : forall y, In y V -> same_obj w1 w2 (OT y)) by (intros y Hy; apply Oth; congruence).
  destruct R1 as [Q1 Q2 Q3 Q4 Q5 Q6 Q7 Q8]. split; [|split].
  - split; auto.
    + congruence.
    + intros y [<-|Hy]; [now rewrite setl_same|]. rewrite setl_other by congruence.
      eapply holds_same; [now apply Sd|]. now apply Q3.
    + intros y [<-|Hy]; [exact Ow2|]. destruct (Sd y Hy) as [Ed _], (St y Hy) as [Et _]. unfold owning. rewrite Ed, Et. now apply Q4.
    + intros y [<-|Hy]; [exact Rd2|]. destruct (Sd y Hy) as [Ed _], (St y Hy) as [Et _]. unfold ready, can_assign. rewrite Ed, Et. now apply Q5.
    + intros y [<-|Hy]; [exact Sm2|]. destruct (Sd y Hy) as [Ed _], (St y Hy) as [Et _]. unfold small. rewrite Ed, Et. now apply Q6.
    + intros y [<-|Hy]; [congruence|]. destruct (Sd y Hy) as [Ed _]. rewrite Ed. now apply Q7.
    + intros y Hy. simpl in Hy. destruct (Nat.eq_dec y s) as [->|Nys]; [exact Uts|].
      destruct (Oth (OT y)) as [E' _]; try congruence; [intuition congruence|]. intros a Ha. rewrite E' in Ha. revert Ha. apply Q8. tauto.
  - intros y Hy. assert (y <> x) by congruence. assert (y <> s) by congruence.
    destruct (O1 y (or_intror Hy)) as [Oy Ny]. split; [|simpl; intuition congruence].
    eapply owning_kept; [exact Oy| |]; apply Oth; congruence.
  - intros y Hy. destruct (Nat.eq_dec y s) as [->|Nys]; [exact Us|].
    assert (Nyx : y <> x) by (intros ->; apply Hy; apply in_or_app; right; now left).
    destruct (Oth (OD y)) as [E' _]; try congruence. intros a Ha. rewrite E' in Ha. revert Ha. apply U1.
    simpl. intros [X|X]; [congruence|]. apply Hy. apply in_app_or in X. apply in_or_app. simpl. tauto.
Qed.

(** A command on vectors of V. *)
Lemma alive_cmd w H V rho c : alive w lim ty H V rho -> cmd_wf lim V rho c ->
  (forall s x ind same e, c = CSub s x ind same e -> ~ In s H) ->
  (forall u, fst (spec_cmd lm ty c rho) <> Undef u) ->
  exists w', run_cmd lm c w = (fst (spec_cmd lm ty c rho), w') /\
    alive w' lim ty H V (snd (spec_cmd lm ty c rho)) /\ (no_leak w -> no_leak w').
Proof.
  intros [R [O U]] WF Ns NU.
  destruct (agrees_all lm ty lim V c w rho R WF) as [w' [E F]]. destruct (F NU) as [R' NL].
  exists w'. split; [exact E|]. split; [|exact NL]. pose proof (run_cmd_only lm c w) as Fr. rewrite E in Fr. cbn [snd] in Fr.
  assert (Td : forall y, ~ In y V -> ~ touched c (OD y)).
  { intros y Hy X. destruct c; simpl in X, WF; intuition congruence. }
  assert (Tt : forall y, In y H -> ~ touched c (OT y)).
  { intros y Hy X. pose proof (proj2 (O y Hy)). destruct c as [x e|x v|x i v|s x ind same e|x ind v]; simpl in X, WF; try (intuition congruence).
    specialize (Ns s x ind same e eq_refl). intuition congruence. }
  split; [exact R'|split].
  - intros y Hy. destruct (O y Hy) as [Oy Ny]. split; [|exact Ny].
    eapply owning_kept; [exact Oy|apply Fr; apply Td; auto|apply Fr; apply Tt; auto].
  - intros y Hy a Ha. rewrite Fr in Ha; [revert Ha; now apply U|]. apply Td. intros X. apply Hy. apply in_or_app. auto.
Qed.
End Alive.
