(** Rebinding wrappers, copying borrowing vectors, raw pointers and foreign
    vectors. *)
From Coq Require Import ZArith List String Bool Lia.
From Verif Require Import Base Num StoreModel VecModel OutModel ForeignModel Spec SpecExpr SpecHist SpecVec SpecForeign SpecOut
  CapProofs StoreProofs StoreOps VecProofs VecAssign StoreThms StoreHist StoreThms2 BorrowProofs VecEval OutProofs
  ForeignProofs ForeignProofs2.
Import ListNotations.
Open Scope Z_scope.
Local Notation length := List.length (only parsing).
Arguments Z.mul : simpl never.

(** An object that owned nothing, or has given its memory back, now points to
    foreign memory. *)
Lemma step1_foreign w w' o a cs :
  world_shape w ->
  (forall o', o' <> o -> ob w' o' = ob w o') -> hlim (hp w') = hlim (hp w) -> hnext (hp w') = hnext (hp w) ->
  (forall b, owns (ob w o) b -> hblk (hp w') b = Freed) ->
  (forall b, ~ owns (ob w o) b -> hblk (hp w') b = hblk (hp w) b) ->
  owner_of (ob w' o) <> OwnCpp -> ptr (ob w' o) = Some a -> alloc (ob w' o) = true ->
  hblk (hp w) a = Live (owner_of (ob w' o)) cs ->
  0 <= sz (ob w' o) <= Z.of_nat (length cs) -> 0 <= cap (ob w' o) <= Z.of_nat (length cs) ->
  step1 w w' o.
Proof.
  intros W Oth Lim Nx F G Ow P Al B Sz Cp.
  assert (NO : ~ owns (ob w o) a).
  { intros O. destruct (owns_live _ _ _ W O) as [c H]. congruence. }
  apply step1_build; auto.
  - lia.
  - intros b Hb. rewrite Nx in Hb. destruct (owns_dec (ob w o) b) as [O|O].
    + exfalso. destruct (owns_live _ _ _ W O) as [c H]. pose proof (live_lt _ _ _ _ W H). lia.
    + rewrite G by auto. now apply (ws_fresh _ W).
  - intros b Hb own cs0 H. exfalso. destruct (owns_dec (ob w o) b) as [O|O].
    + rewrite F in H; auto. discriminate.
    + destruct Hb as [Hb|Hb]; [contradiction|]. rewrite G in H by auto. rewrite (ws_fresh _ W b Hb) in H. discriminate.
  - unfold store_shape. rewrite P. split; [lia|]. split; [lia|]. split; [auto|].
    exists cs. rewrite G by auto. repeat split; auto; lia.
  - intros b [_ Hb]. contradiction.
Qed.

Lemma inited_foreign w o a own xs : ptr (ob w o) = Some a -> hblk (hp w) a = Live own (map Some xs) ->
  0 <= sz (ob w o) <= cap (ob w o) -> cap (ob w o) <= Z.of_nat (length xs) -> inited w o.
Proof.
  intros P B S C. assert (I : forall n, n <= Z.of_nat (length xs) -> init_upto (hp w) (ob w o) n).
  { intros n Hn a' own' cs' P' B' i Hi. assert (a' = a) by congruence. subst a'. rewrite B in B'. injection B' as <- <-.
    exists (nth (Z.to_nat i) xs (VB false)). apply map_some_nth. lia. }
  split; [apply I; lia|]. intros _. split; [lia|]. apply I; lia.
Qed.

(* ------------------------------------------------------------- rebinding *)

Lemma sexp_rebind_done w o r xs :
  world_shape w -> kd (ob w o) = KBorrowSEXP -> (ptr (ob w o) <> None -> todel (ob w o) = true) ->
  (alloc (ob w o) = true -> ptr (ob w o) <> None) ->
  r_ty r = TDouble -> r_has w r xs ->
  exists w', sexp_rebind o r w = (Done tt, w') /\ step1 w w' o /\ inited w' o /\
    ob w' o = mkStore KBorrowSEXP (sty (ob w o)) (Some (r_mem r)) (Z.of_nat (length xs)) (Z.of_nat (length xs)) true
                (r_shape r (mp (ob w o))) false /\
    holds w' o xs /\ r_has w' r xs /\ forall a, ptr (ob w o) = Some a -> hblk (hp w') a = Freed.
Proof.
  intros W K TD HA TY RH. pose proof RH as [BR LR].
  assert (GB : exists w1,
    (if alloc (ob w o) then
       ass (match ptr (ob w o) with Some _ => true | None => false end) "try to delete nullptr" ;;
       del (ptr (ob w o)) ;;
       upd o (with_ptr None)
     else ret tt) w = (Done tt, w1) /\
    ob w1 o = with_ptr None (ob w o) /\ (forall o', o' <> o -> ob w1 o' = ob w o') /\
    hlim (hp w1) = hlim (hp w) /\ hnext (hp w1) = hnext (hp w) /\
    (forall b, owns (ob w o) b -> hblk (hp w1) b = Freed) /\
    (forall b, ~ owns (ob w o) b -> hblk (hp w1) b = hblk (hp w) b)).
  { assert (PD : ptr (ob w o) <> None \/ ptr (ob w o) = None) by (destruct (ptr (ob w o)); [left; discriminate|now right]).
    destruct PD as [P|P].
    - apply give_back; auto. unfold owner_of. now rewrite K, TD.
    - destruct (alloc (ob w o)); [now destruct HA|].
      exists w. split; [reflexivity|]. split.
      + destruct (ob w o). simpl in *. unfold with_ptr. simpl. now rewrite P.
      + repeat split; auto. intros b [Pb _]. congruence. }
  destruct GB as [w1 [E1 [O1 [X1 [L1 [N1 [F1 G1]]]]]]].
  unfold sexp_rebind. rewrite bind_st, (bind_done _ _ _ _ _ E1), r_is_same, bind_ass_true by exact TY.
  assert (NO : ~ owns (ob w o) (r_mem r)).
  { intros O. destruct (owns_live _ _ _ W O) as [c H]. congruence. }
  assert (RH1 : r_has w1 r xs) by (split; [rewrite G1; auto|auto]).
  rewrite (bind_done _ _ _ _ _ (r_length_has w1 r xs RH1)).
  eexists. split; [reflexivity|].
  match goal with |- step1 w ?W' o /\ _ => set (w' := W') end.
  assert (O' : ob w' o = mkStore KBorrowSEXP (sty (ob w o)) (Some (r_mem r)) (Z.of_nat (length xs)) (Z.of_nat (length xs)) true
                (r_shape r (mp (ob w o))) false).
  { unfold w'. rewrite ob_set_same, O1. unfold with_ptr. simpl. now rewrite K. }
  assert (ST : step1 w w' o).
  { eapply (step1_foreign w w' o (r_mem r) (map Some xs)); auto; rewrite ?O'; simpl; auto; try (rewrite map_length; lia); try discriminate.
    intros o' N. rewrite oid_eqb_neq by auto. auto. }
  assert (B' : hblk (hp w') (r_mem r) = Live OwnR (map Some xs)) by apply RH1.
  split; [exact ST|]. split.
  { apply (inited_foreign w' o (r_mem r) OwnR xs); auto; rewrite O'; simpl; auto; lia. }
  split; [exact O'|]. split.
  - apply holds_cells; [apply ST|]. rewrite O'. simpl. split; [reflexivity|].
    intros i Hi. rewrite (cells_of_ptr w' o (r_mem r) OwnR (map Some xs)); [|now rewrite O'|exact B'].
    now apply map_some_nth.
  - split; [exact RH1|]. intros a P. apply F1. split; auto. unfold owner_of. rewrite K, TD; congruence.
Qed.

(** Rebinding a wrapper that shows an R object frees R's memory. *)
Lemma sexp_rebind_wrapping w o r a cs :
  kd (ob w o) = KBorrowSEXP -> ptr (ob w o) = Some a -> alloc (ob w o) = true -> hblk (hp w) a = Live OwnR cs ->
  sexp_rebind o r w = (Undef UB_foreign_free, w).
Proof.
  intros K P A B. unfold sexp_rebind. rewrite bind_st, A, P, bind_assoc, bind_ass_true, bind_assoc.
  unfold bind. now rewrite (del_foreign _ _ _ B).
Qed.

(** push_back on a wrapper that shows an R object: the same. *)
Lemma sexp_push_back_wrapping w o v a l :
  world_shape w -> kd (ob w o) = KBorrowSEXP -> ptr (ob w o) = Some a -> todel (ob w o) = false ->
  holds w o l -> cap (ob w o) = sz (ob w o) ->
  Z.of_nat (length l) <= 933500000 -> 4 * Z.of_nat (length l) + 2 <= hlim (hp w) ->
  fst (sexp_push_back o v w) = Undef UB_foreign_free.
Proof.
  intros W K P TD H CP Lm HL. pose proof (ws_lim _ W) as Lim. pose proof (proj1 H) as Sz.
  unfold sexp_push_back. rewrite bind_st, CP, Z.eqb_refl.
  pose (m := if sz (ob w o) =? 0 then 1 else sz (ob w o) * 2).
  assert (Hm : sz (ob w o) + 1 <= m <= 1867000000 /\ m <= 2 * sz (ob w o) + 1).
  { unfold m. destruct (Z.eqb_spec (sz (ob w o)) 0); lia. }
  assert (Em : (if sz (ob w o) =? 0 then sexp_realloc o 1 else sexp_realloc o (to_int (wrap64 (sz (ob w o) * 2)))) = sexp_realloc o m).
  { unfold m. destruct (Z.eqb_spec (sz (ob w o)) 0); auto. rewrite wrap64_id, StoreOps.to_int_id by lia. reflexivity. }
  rewrite Em.
  assert (U : exists w1, sexp_realloc o m w = (Undef UB_foreign_free, w1)).
  { destruct (cap115_int_ok m) as [c [C [C1 C2]]]; [lia|].
    unfold sexp_realloc. rewrite bind_st, wrap64_id by lia.
    replace (m <=? sz (ob w o)) with false by (symmetry; apply Z.leb_gt; lia).
    rewrite C, bind_lift_done, bind_upd.
    set (w0 := set_ob w o (with_cap c (ob w o))).
    assert (HL0 : c <= hlim (hp w0)) by (change (hlim (hp w0)) with (hlim (hp w)); lia).
    rewrite (bind_done _ _ _ _ _ (new_ok w0 c HL0)).
    change (hnext (hp w0)) with (hnext (hp w)). set (b := hnext (hp w)).
    destruct (ptr_live _ _ _ W P) as [cs [B [L1 L2]]]. unfold owner_of in B. rewrite K, TD in B.
    pose proof (live_lt _ _ _ _ W B) as Lt. rewrite P.
    destruct (for_wr_gen (fun k => Some (nth (Z.to_nat k) l (VB false)))
               (fun i => v <- rd (Some a) i ;; wr (Some b) i v)
               (new_world w0 c) b OwnCpp (repeat None (Z.to_nat c)) 0 (Z.to_nat (sz (ob w o))))
        as [w1 [cs1 [E [U [Len Nth]]]]].
    - simpl. unfold b. now rewrite Nat.eqb_refl.
    - lia.
    - rewrite repeat_length. lia.
    - intros k w1 cs1 Hk [U1 [U2 [U3 [U4 U5]]]] _.
      rewrite (bind_done _ _ _ (nth (Z.to_nat k) l (VB false)) w1); [reflexivity|].
      eapply rd_ok; [rewrite U5 by (unfold b; lia)| lia |].
      + simpl. replace (Nat.eqb a (hnext (hp w))) with false by (symmetry; apply Nat.eqb_neq; lia). exact B.
      + rewrite <- (cells_of_ptr w o a OwnR cs P B). apply holds_in; auto. lia.
    - unfold for_. rewrite (bind_done _ _ _ _ _ E).
      destruct U as [U1 [U2 [U3 [U4 U5]]]]. rewrite repeat_length in Len.
      destruct (for_wr (fun _ => Some (zero_of (sty (ob w o)))) w1 b OwnCpp cs1 (sz (ob w o))
              (Z.to_nat (m - sz (ob w o))) U4) as [w2 [cs2 [E2 [[V1 [V2 [V3 [V4 V5]]]] [Len2 Nth2]]]]]; [lia|lia|].
      unfold wr in *. rewrite (bind_done _ _ _ _ _ E2), bind_upd. unfold bind at 1.
      rewrite (del_foreign _ a cs); [eauto|].
      simpl. rewrite V5, U5 by (unfold b; lia). simpl.
      replace (Nat.eqb a (hnext (hp w))) with false by (symmetry; apply Nat.eqb_neq; lia). exact B. }
  destruct U as [w1 U]. unfold bind at 1. rewrite U. reflexivity.
Qed.

(* ------------------------------------------------------- writing elements *)

(** A loop that writes us to the elements of o. *)
Lemma fill_any w o own a cs us (body : Z -> M world unit) :
  world_shape w -> ptr (ob w o) = Some a -> hblk (hp w) a = Live own cs -> sz (ob w o) = Z.of_nat (length us) ->
  (length us <= length cs)%nat ->
  (forall k w1 cs1, 0 <= k < Z.of_nat (length us) -> upd_cells w w1 a own cs1 ->
     body k w1 = wrc (Some a) k (Some (nth (Z.to_nat k) us (VB false))) w1) ->
  exists w' cs', forN (length us) 0 body w = (Done tt, w') /\ upd_cells w w' a own cs' /\ length cs' = length cs /\
    (forall j, nth j cs' None = if Nat.ltb j (length us) then Some (nth j us (VB false)) else nth j cs None) /\
    world_shape w' /\ holds w' o us.
Proof.
  intros W P B Sz Len HB.
  destruct (for_wr_gen (fun k => Some (nth (Z.to_nat k) us (VB false))) body w a own cs 0 (length us) B)
    as [w' [cs' [E [U [L N]]]]]; [lia|lia| |].
  { intros k w1 cs1 Hk U1 _. apply (HB k w1 cs1); auto; lia. }
  assert (W' : world_shape w') by (eapply shape_cells; eauto).
  assert (N' : forall j, nth j cs' None = if Nat.ltb j (length us) then Some (nth j us (VB false)) else nth j cs None).
  { intros j. rewrite N, Nat2Z.id. replace (0 <=? Z.of_nat j) with true by (symmetry; apply Z.leb_le; lia).
    rewrite Z.add_0_l. cbn [andb].
    destruct (Nat.ltb_spec j (length us)), (Z.ltb_spec (Z.of_nat j) (Z.of_nat (length us))); auto; lia. }
  exists w', cs'. split; [exact E|]. split; [exact U|]. split; [exact L|]. split; [exact N'|]. split; [exact W'|].
  destruct U as [U1 [U2 [U3 [U4 U5]]]].
  apply holds_cells; auto. rewrite U1. split; [exact Sz|].
  intros i Hi. rewrite (cells_of_ptr w' o a own cs'); [|now rewrite U1|exact U4].
  rewrite N'. apply Nat.ltb_lt in Hi. now rewrite Hi.
Qed.
