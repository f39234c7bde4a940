From Coq Require Import ZArith List String Bool Lia.
From Verif Require Import Base Num StoreModel VecModel Spec CapProofs.
Import ListNotations.
Open Scope Z_scope.

(* ------------------------------------------------------------- basics *)

Lemma oid_eqb_spec a b : reflect (a = b) (oid_eqb a b).
Proof.
  destruct a, b; simpl; try (constructor; congruence);
    destruct (Nat.eqb_spec x x0); constructor; congruence.
Qed.
Lemma oid_eqb_refl a : oid_eqb a a = true.
Proof. destruct (oid_eqb_spec a a); congruence. Qed.
Lemma oid_eqb_neq a b : a <> b -> oid_eqb a b = false.
Proof. destruct (oid_eqb_spec a b); congruence. Qed.
Lemma oid_dec (a b : oid) : {a = b} + {a <> b}.
Proof. destruct (oid_eqb_spec a b); auto. Qed.

Lemma ob_set_same w o s : ob (set_ob w o s) o = s.
Proof. simpl. now rewrite oid_eqb_refl. Qed.
Lemma ob_set_other w o s o' : o' <> o -> ob (set_ob w o s) o' = ob w o'.
Proof. intros H. simpl. now rewrite oid_eqb_neq. Qed.
Lemma hp_set_ob w o s : hp (set_ob w o s) = hp w.
Proof. reflexivity. Qed.

Lemma list_set_length {A} (l : list A) i a : List.length (list_set l i a) = List.length l.
Proof. revert i; induction l; destruct i; simpl; auto. Qed.
Lemma list_set_nth {A} (l : list A) i a d j :
  nth j (list_set l i a) d =
  if (Nat.eqb j i && Nat.ltb i (List.length l))%bool then a else nth j l d.
Proof.
  revert i j; induction l as [|x l IH]; intros i j.
  - destruct i, j; simpl; auto; now rewrite andb_false_r.
  - destruct i, j; simpl; auto. rewrite IH. reflexivity.
Qed.

(** Stepwise evaluation. *)
Lemma bind_done {W A B} (m : M W A) (f : A -> M W B) w a w' :
  m w = (Done a, w') -> bind m f w = f a w'.
Proof. unfold bind. now intros ->. Qed.
Lemma bind_thrown {W A B} (m : M W A) (f : A -> M W B) w e w' :
  m w = (Thrown e, w') -> bind m f w = (Thrown e, w').
Proof. unfold bind. now intros ->. Qed.
Lemma bind_undef {W A B} (m : M W A) (f : A -> M W B) w u w' :
  m w = (Undef u, w') -> bind m f w = (Undef u, w').
Proof. unfold bind. now intros ->. Qed.

(** Loop rule for loops that run to completion. *)
Lemma forN_inv {W} (I : Z -> W -> Prop) (body : Z -> M W unit) n : forall i w,
  I i w ->
  (forall k w, i <= k < i + Z.of_nat n -> I k w ->
     exists w', body k w = (Done tt, w') /\ I (k + 1) w') ->
  exists w', forN n i body w = (Done tt, w') /\ I (i + Z.of_nat n) w'.
Proof.
  induction n as [|n IH]; intros i w Hi Hb.
  - exists w. split; [reflexivity|]. now rewrite Z.add_0_r.
  - destruct (Hb i w) as [w1 [E1 H1]]; [lia|exact Hi|].
    destruct (IH (i + 1) w1 H1) as [w2 [E2 H2]].
    { intros k w' Hk HI. apply Hb; [lia|exact HI]. }
    exists w2. split.
    + simpl. rewrite (bind_done _ _ _ _ _ E1). exact E2.
    + replace (i + Z.of_nat (S n)) with (i + 1 + Z.of_nat n) by lia. exact H2.
Qed.

(** Loop rule covering every outcome. *)
Lemma forN_all {W} (I : Z -> W -> Prop) (E : W -> Prop) (U : ub -> W -> Prop)
      (body : Z -> M W unit) n : forall i w,
  I i w ->
  (forall k w, i <= k < i + Z.of_nat n -> I k w ->
     match body k w with
     | (Done _, w') => I (k + 1) w'
     | (Thrown _, w') => E w'
     | (Undef u, w') => U u w'
     end) ->
  match forN n i body w with
  | (Done _, w') => I (i + Z.of_nat n) w'
  | (Thrown _, w') => E w'
  | (Undef u, w') => U u w'
  end.
Proof.
  induction n as [|n IH]; intros i w Hi Hb.
  - simpl. now rewrite Z.add_0_r.
  - replace (i + Z.of_nat (S n)) with (i + 1 + Z.of_nat n) by lia.
    simpl forN. unfold bind.
    pose proof (Hb i w ltac:(lia) Hi) as H1.
    destruct (body i w) as [[[]|e|u] w1]; auto.
    pose proof (IH (i + 1) w1 H1) as H2.
    apply H2. intros k w' Hk HI. apply Hb; [lia|exact HI].
Qed.

(* ------------------------------------------------------ memory effects *)

(** Only block [a] changed, to [cs']. *)
Definition upd_cells (w w' : world) (a : nat) (own : owner) (cs' : list (option val)) : Prop :=
  ob w' = ob w /\ hnext (hp w') = hnext (hp w) /\ hlim (hp w') = hlim (hp w) /\
  hblk (hp w') a = Live own cs' /\
  (forall b, b <> a -> hblk (hp w') b = hblk (hp w) b).

Lemma wrc_ok w a i c own cs :
  hblk (hp w) a = Live own cs -> 0 <= i < Z.of_nat (List.length cs) ->
  exists w', wrc (Some a) i c w = (Done tt, w') /\
             upd_cells w w' a own (list_set cs (Z.to_nat i) c).
Proof.
  intros H Hi. unfold wrc. rewrite H.
  replace ((0 <=? i) && (i <? Z.of_nat (List.length cs))) with true
    by (symmetry; apply andb_true_intro; split; [apply Z.leb_le|apply Z.ltb_lt]; lia).
  eexists. split; [reflexivity|].
  unfold upd_cells. simpl. rewrite Nat.eqb_refl. repeat split; auto.
  intros b Hb. destruct (Nat.eqb_spec b a); congruence.
Qed.

Lemma rd_ok w a i own cs v :
  hblk (hp w) a = Live own cs -> 0 <= i ->
  nth (Z.to_nat i) cs None = Some v -> rd (Some a) i w = (Done v, w).
Proof.
  intros H Hi Hn. unfold rd. rewrite H.
  assert (L : (Z.to_nat i < List.length cs)%nat).
  { destruct (Nat.ltb_spec (Z.to_nat i) (List.length cs)); auto.
    rewrite nth_overflow in Hn by lia. discriminate. }
  replace ((0 <=? i) && (i <? Z.of_nat (List.length cs))) with true
    by (symmetry; apply andb_true_intro; split; [apply Z.leb_le|apply Z.ltb_lt]; lia).
  now rewrite Hn.
Qed.

(** Loop writing one block cell after cell. *)
Lemma for_wr (f : Z -> option val) w a own cs i n :
  hblk (hp w) a = Live own cs -> 0 <= i -> i + Z.of_nat n <= Z.of_nat (List.length cs) ->
  exists w' cs', forN n i (fun k => wrc (Some a) k (f k)) w = (Done tt, w') /\
    upd_cells w w' a own cs' /\ List.length cs' = List.length cs /\
    forall j, nth j cs' None =
      if ((i <=? Z.of_nat j) && (Z.of_nat j <? i + Z.of_nat n))%bool then f (Z.of_nat j)
      else nth j cs None.
Proof.
  intros H Hi Hl.
  pose (I := fun (k : Z) (w' : world) => exists cs',
     upd_cells w w' a own cs' /\ List.length cs' = List.length cs /\
     forall j, nth j cs' None =
      if ((i <=? Z.of_nat j) && (Z.of_nat j <? k))%bool then f (Z.of_nat j)
      else nth j cs None).
  destruct (forN_inv I (fun k => wrc (Some a) k (f k)) n i w) as [w' [E [cs' HI]]].
  - exists cs. split; [|split; [reflexivity|]].
    + unfold upd_cells. auto.
    + intros j. destruct ((i <=? Z.of_nat j) && (Z.of_nat j <? i)) eqn:X; [|reflexivity].
      apply andb_prop in X as [X1 X2]. apply Z.leb_le in X1. apply Z.ltb_lt in X2. lia.
  - intros k w1 Hk [cs1 [[O1 [N1 [L1 [B1 R1]]]] [Len1 Nth1]]].
    destruct (wrc_ok w1 a k (f k) own cs1 B1) as [w2 [E2 [O2 [N2 [L2 [B2 R2]]]]]].
    { rewrite Len1. lia. }
    exists w2. split; [exact E2|].
    exists (list_set cs1 (Z.to_nat k) (f k)). split; [|split].
    + repeat split; try congruence. intros b Hb. rewrite R2, R1; auto.
    + now rewrite list_set_length.
    + intros j. rewrite list_set_nth, Nth1, Len1.
      destruct (Nat.eqb_spec j (Z.to_nat k)); simpl.
      * subst j. rewrite Z2Nat.id by lia.
        replace (Nat.ltb (Z.to_nat k) (List.length cs)) with true by (symmetry; apply Nat.ltb_lt; lia).
        replace ((i <=? k) && (k <? k + 1)) with true; [reflexivity|].
        symmetry; apply andb_true_intro; split; [apply Z.leb_le|apply Z.ltb_lt]; lia.
      * destruct (i <=? Z.of_nat j) eqn:X1; simpl; [|reflexivity].
        destruct (Z.ltb_spec (Z.of_nat j) k), (Z.ltb_spec (Z.of_nat j) (k + 1)); try lia; reflexivity.
  - exists w', cs'. tauto.
Qed.

(* ------------------------------------------------------------- frames *)

Lemma same_obj_refl w o : same_obj w w o.
Proof. split; auto. Qed.
Lemma same_obj_trans w1 w2 w3 o : same_obj w1 w2 o -> same_obj w2 w3 o -> same_obj w1 w3 o.
Proof.
  intros [A B] [C D]. split; [congruence|].
  intros a H. rewrite D by congruence. now apply B.
Qed.

Lemma at_rd_same w w' o i : same_obj w w' o -> fst (at_rd o i w') = fst (at_rd o i w).
Proof.
  intros [A B]. unfold at_rd, sexp_get_at, get_at, bind, st, ass. rewrite A.
  assert (R : fst (rd (ptr (ob w o)) i w') = fst (rd (ptr (ob w o)) i w)).
  { unfold rd. destruct (ptr (ob w o)) as [a|] eqn:P; simpl; auto.
    rewrite (B a eq_refl). destruct (hblk (hp w) a); auto.
    destruct ((0 <=? i) && (i <? Z.of_nat (List.length cells))); auto.
    destruct (nth (Z.to_nat i) cells None); auto. }
  destruct (kd (ob w o)); rewrite ?A;
    repeat match goal with |- context [if ?b then _ else _] => destruct b; simpl; auto end;
    rewrite ?A; auto.
Qed.

Lemma at_rd_pure o i w : snd (at_rd o i w) = w.
Proof.
  unfold at_rd, sexp_get_at, get_at, bind, st, ass.
  destruct (kd (ob w o)); simpl;
    repeat match goal with |- context [if ?b then _ else _] => destruct b; simpl; auto end;
    unfold rd;
    destruct (ptr (ob w o)) as [a|]; simpl; auto; destruct (hblk (hp w) a); auto;
    destruct ((0 <=? i) && (i <? Z.of_nat (List.length cells))); auto;
    destruct (nth (Z.to_nat i) cells None); auto.
Qed.

Lemma pair_eta {A B} (p : A * B) a b : fst p = a -> snd p = b -> p = (a, b).
Proof. destruct p; simpl; congruence. Qed.

Lemma holds_same w w' o l : same_obj w w' o -> holds w o l -> holds w' o l.
Proof.
  intros S [A B]. split.
  - destruct S as [S _]. now rewrite S.
  - intros i Hi. apply pair_eta; [|apply at_rd_pure].
    rewrite (at_rd_same w w' o _ S), B by assumption. reflexivity.
Qed.

(** Characterisation of [holds] by the memory cells. *)
Definition cells_of (w : world) (o : oid) : list (option val) :=
  match ptr (ob w o) with
  | Some a => match hblk (hp w) a with Live _ cs => cs | _ => [] end
  | None => []
  end.

Lemma at_rd_cells w o i v : world_shape w -> 0 <= i < sz (ob w o) ->
  nth (Z.to_nat i) (cells_of w o) None = Some v -> at_rd o i w = (Done v, w).
Proof.
  intros W Hi Hn.
  pose proof (ws_store _ W o) as S. unfold store_shape in S.
  unfold cells_of in Hn. destruct (ptr (ob w o)) as [a|] eqn:P; [|destruct (Z.to_nat i); discriminate].
  destruct S as [S1 [S2 [S3 [cs [S4 [S5 S6]]]]]]. rewrite S4 in Hn.
  unfold at_rd, sexp_get_at, get_at, bind, st, ass.
  assert (L : (i <? sz (ob w o)) = true) by (apply Z.ltb_lt; lia).
  destruct (kd (ob w o)) eqn:K; rewrite ?P, ?S3, ?L; simpl; rewrite ?L, ?P; simpl; rewrite ?P;
    eapply rd_ok; eauto; lia.
Qed.

Lemma at_rd_cells_inv w o i v : at_rd o i w = (Done v, w) -> 0 <= i ->
  nth (Z.to_nat i) (cells_of w o) None = Some v.
Proof.
  unfold at_rd, sexp_get_at, get_at, bind, st, ass, cells_of.
  intros H Hi. destruct (kd (ob w o)); simpl in H;
    repeat match type of H with context [if ?b then _ else _] => destruct b; simpl in H; try discriminate end;
    unfold rd in H;
    destruct (ptr (ob w o)) as [a|]; simpl in H; try discriminate;
    destruct (hblk (hp w) a); try discriminate;
    destruct ((0 <=? i) && (i <? Z.of_nat (List.length cells))) eqn:X; try discriminate;
    destruct (nth (Z.to_nat i) cells None) eqn:Y; try discriminate;
    congruence.
Qed.

Lemma holds_cells w o l : world_shape w ->
  (holds w o l <->
   sz (ob w o) = Z.of_nat (List.length l) /\
   forall i, (i < List.length l)%nat -> nth i (cells_of w o) None = Some (nth i l (VB false))).
Proof.
  intros W. split; intros [A B]; (split; [exact A|]); intros i Hi.
  - specialize (B i Hi). apply at_rd_cells_inv in B; [|lia]. now rewrite Nat2Z.id in B.
  - apply at_rd_cells; auto; [lia|]. rewrite Nat2Z.id. auto.
Qed.

Lemma inited_ex w o : world_ok w -> exists l, holds w o l.
Proof.
  intros [W I]. destruct (I o) as [I1 _].
  pose proof (ws_store _ W o) as S. unfold store_shape in S.
  exists (map (fun c => match c with Some v => v | None => VB false end)
              (firstn (Z.to_nat (sz (ob w o))) (cells_of w o))).
  apply holds_cells; [exact W|].
  assert (L : (Z.to_nat (sz (ob w o)) <= List.length (cells_of w o))%nat).
  { unfold cells_of. destruct (ptr (ob w o)) as [a|].
    - destruct S as [S1 [S2 [S3 [cs [S4 [S5 S6]]]]]]. rewrite S4. lia.
    - destruct S as [S1 [S2 [S3 S4]]]. rewrite S3. simpl. lia. }
  rewrite map_length, firstn_length_le by exact L.
  split; [rewrite Z2Nat.id; lia|].
  intros i Hi.
  unfold cells_of in *. destruct (ptr (ob w o)) as [a|] eqn:P.
  - destruct S as [S1 [S2 [S3 [cs [S4 [S5 S6]]]]]]. rewrite S4 in *.
    destruct (I1 a _ cs P S4 (Z.of_nat i)) as [v Hv]; [lia|].
    rewrite Nat2Z.id in Hv. rewrite Hv. f_equal.
    change (VB false) with ((fun c => match c with Some v => v | None => VB false end) None) at 2.
    rewrite map_nth.
    assert (N : nth i (firstn (Z.to_nat (sz (ob w o))) cs) None = nth i cs None).
    { rewrite <- (firstn_skipn (Z.to_nat (sz (ob w o))) cs) at 2.
      rewrite app_nth1; [reflexivity|]. rewrite firstn_length_le; lia. }
    now rewrite N, Hv.
  - destruct S as [S1 [S2 [S3 S4]]]. rewrite S3 in Hi. simpl in Hi. lia.
Qed.

Lemma holds_unique w o l l' : holds w o l -> holds w o l' -> l = l'.
Proof.
  intros [A B] [C D].
  assert (L : List.length l = List.length l') by lia.
  apply nth_ext with (d := VB false) (d' := VB false); [exact L|].
  intros i Hi. specialize (B i Hi). specialize (D i ltac:(lia)). congruence.
Qed.

(** The world invariant only depends on the objects pointwise. *)
Lemma owns_ptr s a : owns s a -> ptr s = Some a.
Proof. now intros [H _]. Qed.

(* ------------------------------------------- effects on a single object *)


Lemma live_lt w a own cs : world_shape w -> hblk (hp w) a = Live own cs -> (a < hnext (hp w))%nat.
Proof.
  intros W H. destruct (Nat.ltb_spec a (hnext (hp w))); auto.
  rewrite (ws_fresh _ W a) in H by lia. discriminate.
Qed.

Lemma owns_live w o a : world_shape w -> owns (ob w o) a ->
  exists cs, hblk (hp w) a = Live OwnCpp cs.
Proof.
  intros W [P O]. pose proof (ws_store _ W o) as S. unfold store_shape in S. rewrite P in S.
  destruct S as [_ [_ [_ [cs [H _]]]]]. rewrite O in H. eauto.
Qed.

Lemma ptr_live w o a : world_shape w -> ptr (ob w o) = Some a ->
  exists cs, hblk (hp w) a = Live (owner_of (ob w o)) cs /\
   sz (ob w o) <= Z.of_nat (List.length cs) /\ cap (ob w o) <= Z.of_nat (List.length cs).
Proof.
  intros W P. pose proof (ws_store _ W o) as S. unfold store_shape in S. rewrite P in S.
  destruct S as [_ [_ [_ [cs H]]]]. eauto.
Qed.

Lemma other_ptr w o o' a : world_shape w -> owns (ob w o) a -> o' <> o -> ptr (ob w o') <> Some a.
Proof.
  intros W O N P. destruct (owns_live _ _ _ W O) as [cs H].
  destruct (ptr_live _ _ _ W P) as [cs' [H' _]].
  assert (owner_of (ob w o') = OwnCpp) by congruence.
  apply N. apply (ws_sep _ W o' o a); auto. split; auto.
Qed.

Lemma owns_dec s a : {owns s a} + {~ owns s a}.
Proof.
  unfold owns. destruct (ptr s) as [b|]; [|right; intros [? _]; discriminate].
  destruct (Nat.eq_dec b a) as [->|N]; [|right; intros [? _]; congruence].
  destruct (owner_of s); auto; right; intros [_ ?]; discriminate.
Qed.

Lemma step1_build w w' o :
  world_shape w ->
  (forall o', o' <> o -> ob w' o' = ob w o') ->
  hlim (hp w') = hlim (hp w) ->
  (hnext (hp w) <= hnext (hp w'))%nat ->
  (forall b, (hnext (hp w') <= b)%nat -> hblk (hp w') b = Unused) ->
  (forall b, (b < hnext (hp w))%nat -> ~ owns (ob w o) b -> hblk (hp w') b = hblk (hp w) b) ->
  (forall b, owns (ob w o) b \/ (hnext (hp w) <= b)%nat ->
     forall own cs, hblk (hp w') b = Live own cs ->
     Z.of_nat (List.length cs) <= hlim (hp w) /\ owns (ob w' o) b) ->
  store_shape (hp w') (ob w' o) ->
  (forall b, owns (ob w' o) b -> owns (ob w o) b \/ (hnext (hp w) <= b)%nat) ->
  step1 w w' o.
Proof.
  intros W Oth Lim Nx Fr Keep New Sh Own.
  assert (OT : forall o', o' <> o -> same_obj w w' o').
  { intros o' N. split; [auto|]. intros a P.
    destruct (ptr_live _ _ _ W P) as [cs [H _]].
    apply Keep; [eapply live_lt; eauto|].
    intros O. eapply other_ptr; eauto. }
  assert (WS : world_shape w').
  { split; auto.
    - intros o'. destruct (oid_dec o' o) as [->|N]; [auto|].
      destruct (OT o' N) as [E B]. rewrite E.
      pose proof (ws_store _ W o') as S. unfold store_shape in *.
      destruct (ptr (ob w o')) as [a|] eqn:P; [|exact S]. rewrite (B a eq_refl). exact S.
    - intros o1 o2 a O1 O2.
      destruct (oid_dec o1 o) as [->|N1], (oid_dec o2 o) as [->|N2]; auto.
      + rewrite (Oth o2 N2) in O2. destruct (owns_live _ _ _ W O2) as [cs H].
        destruct (Own a O1) as [O|Hb]; [now apply (ws_sep _ W o o2 a)|].
        pose proof (live_lt _ _ _ _ W H). lia.
      + rewrite (Oth o1 N1) in O1. destruct (owns_live _ _ _ W O1) as [cs H].
        destruct (Own a O2) as [O|Hb]; [now apply (ws_sep _ W o1 o a)|].
        pose proof (live_lt _ _ _ _ W H). lia.
      + rewrite (Oth o1 N1) in O1. rewrite (Oth o2 N2) in O2. now apply (ws_sep _ W o1 o2 a).
    - rewrite Lim. apply (ws_lim _ W).
    - pose proof (ws_lim _ W) as LL.
      intros a own cs H. rewrite Lim. destruct (owns_dec (ob w o) a) as [O|O].
      + destruct (New a (or_introl O) own cs H). split; [lia|auto].
      + destruct (Nat.ltb_spec a (hnext (hp w))) as [L|L].
        * rewrite (Keep a L O) in H. apply (ws_len _ W _ _ _ H).
        * destruct (New a (or_intror L) own cs H). split; [lia|auto]. }
  split; auto.
  - intros b cs H. destruct (owns_dec (ob w o) b) as [O|O].
    + left. now apply (New b (or_introl O) OwnCpp cs).
    + destruct (Nat.ltb_spec b (hnext (hp w))) as [L|L].
      * right. rewrite (Keep b L O) in H. auto.
      * left. now apply (New b (or_intror L) OwnCpp cs).
  - intros b own cs Ne H. rewrite Keep; auto.
    + eapply live_lt; eauto.
    + intros O. destruct (owns_live _ _ _ W O) as [cs' H']. congruence.
Qed.

Lemma step1_refl w o : world_shape w -> step1 w w o.
Proof.
  intros W. split; auto.
  - intros. apply same_obj_refl.
  - intros b cs H. destruct (owns_dec (ob w o) b); auto.
Qed.

Lemma step1_trans w w1 w2 o : step1 w w1 o -> step1 w1 w2 o -> step1 w w2 o.
Proof.
  intros A B. split.
  - apply B.
  - rewrite (s1_lim _ _ _ B). apply A.
  - intros o' N. eapply same_obj_trans; [apply A|apply B]; auto.
  - intros b cs H. destruct (s1_leak _ _ _ B b cs H) as [|[H1 N1]]; auto.
    destruct (s1_leak _ _ _ A b cs H1) as [|[H2 N2]]; [contradiction|auto].
  - intros b own cs Ne H. apply (s1_ext _ _ _ B); auto. apply (s1_ext _ _ _ A); auto.
Qed.

Lemma step1_no_leak w w' o : step1 w w' o -> no_leak w -> no_leak w'.
Proof.
  intros S N b cs H. destruct (s1_leak _ _ _ S b cs H) as [|[H1 N1]]; eauto.
  destruct (N b cs H1) as [o' O']. exists o'.
  assert (o' <> o) by congruence.
  destruct (s1_other _ _ _ S o' H0) as [E _]. now rewrite E.
Qed.

Lemma inited_same w w' o : same_obj w w' o -> inited w o -> inited w' o.
Proof.
  intros [E B] [I J]. unfold inited. rewrite E. split.
  - intros a own cs P H i Hi. rewrite (B a P) in H. eapply I; eauto.
  - intros K. destruct (J K) as [J1 J2]. split; [exact J1|].
    intros a own cs P H i Hi. rewrite (B a P) in H. eapply J2; eauto.
Qed.

Lemma step1_ok w w' o : step1 w w' o -> world_ok w -> inited w' o -> world_ok w'.
Proof.
  intros S [W I] J. split; [apply S|].
  intros o'. destruct (oid_dec o' o) as [->|N]; auto.
  eapply inited_same; [apply (s1_other _ _ _ S); auto|auto].
Qed.

(** Monad steps. *)
Lemma bind_st {A} o (f : store -> M world A) w : bind (st o) f w = f (ob w o) w.
Proof. reflexivity. Qed.
Lemma bind_upd {A} o g (f : unit -> M world A) w :
  bind (upd o g) f w = f tt (set_ob w o (g (ob w o))).
Proof. reflexivity. Qed.
Lemma bind_get {A} (f : world -> M world A) w : bind get f w = f w w.
Proof. reflexivity. Qed.
Lemma bind_ret {A B} (a : A) (f : A -> M world B) w : bind (ret a) f w = f a w.
Proof. reflexivity. Qed.
Lemma bind_lift_done {A B} (a : A) (f : A -> M world B) w : bind (lift (Done a)) f w = f a w.
Proof. reflexivity. Qed.
Lemma bind_ass_true {B} m (f : unit -> M world B) w : bind (ass true m) f w = f tt w.
Proof. reflexivity. Qed.
Lemma bind_ass_false {B} m (f : unit -> M world B) w : bind (ass false m) f w = (Thrown (Ass m), w).
Proof. reflexivity. Qed.
Lemma bind_assoc {A B C} (m : M world A) (f : A -> M world B) (g : B -> M world C) w :
  bind (bind m f) g w = bind m (fun a => bind (f a) g) w.
Proof. unfold bind. destruct (m w) as [[]]; auto. Qed.

(** [new T[n]] *)
Definition new_world (w : world) (n : Z) : world :=
  set_hp w (mkHeap (S (hnext (hp w)))
       (fun a' => if Nat.eqb a' (hnext (hp w)) then Live OwnCpp (repeat None (Z.to_nat n)) else hblk (hp w) a')
       (hlim (hp w))).
Lemma new_ok w n : n <= hlim (hp w) -> new_ n w = (Done (hnext (hp w)), new_world w n).
Proof. intros H. unfold new_. apply Z.leb_le in H. now rewrite H. Qed.
Lemma new_fail w n : hlim (hp w) < n -> new_ n w = (Thrown BadAlloc, w).
Proof. intros H. unfold new_. apply Z.leb_gt in H. now rewrite H. Qed.

Lemma del_own w a cs : hblk (hp w) a = Live OwnCpp cs ->
  del (Some a) w = (Done tt, set_hp w (set_blk (hp w) a Freed)).
Proof. intros H. unfold del. now rewrite H. Qed.

(** Writing the same value to all cells up to the size. *)
Lemma fill_ok w o v a own cs :
  ptr (ob w o) = Some a -> hblk (hp w) a = Live own cs ->
  0 <= sz (ob w o) <= Z.of_nat (List.length cs) ->
  forall v', cast (sty (ob w o)) v = Done v' ->
  exists w' cs', fill o v w = (Done tt, w') /\ upd_cells w w' a own cs' /\
    List.length cs' = List.length cs /\
    forall j, nth j cs' None =
      if Z.of_nat j <? sz (ob w o) then Some v' else nth j cs None.
Proof.
  intros P H Hs v' C.
  destruct (for_wr (fun _ => Some v') w a own cs 0 (Z.to_nat (sz (ob w o))) H) as [w' [cs' [E [U [L N]]]]]; [lia|lia|].
  exists w', cs'. unfold fill. rewrite bind_st, C, bind_lift_done, P. unfold for_, wr.
  split; [exact E|]. split; [exact U|]. split; [exact L|].
  intros j. rewrite N. rewrite Z2Nat.id by lia.
  replace (0 <=? Z.of_nat j) with true by (symmetry; apply Z.leb_le; lia). reflexivity.
Qed.

Lemma cast_zero t : cast t (zero_of t) = Done (zero_of t).
Proof. destruct t; reflexivity. Qed.

(** Changing the cells of a block the object owns. *)
Lemma step1_cells w w' o a cs cs' :
  world_shape w -> owns (ob w o) a -> hblk (hp w) a = Live OwnCpp cs ->
  upd_cells w w' a OwnCpp cs' -> List.length cs' = List.length cs -> step1 w w' o.
Proof.
  intros W O H [E [N [L [B R]]]] Len.
  assert (Lt := live_lt _ _ _ _ W H).
  apply step1_build; auto.
  - intros. now rewrite E.
  - lia.
  - intros b Hb. rewrite R by (intros ->; lia). apply (ws_fresh _ W). lia.
  - intros b Hb Nb. apply R. intros ->. contradiction.
  - intros b Hb own cs0 H0. rewrite E.
    destruct (Nat.eq_dec b a) as [->|Ne].
    + split; auto. rewrite B in H0. injection H0 as <- <-. rewrite Len.
      now apply (ws_len _ W _ _ _ H).
    + exfalso. destruct Hb as [Hb|Hb].
      * destruct Hb as [P _], O as [P' _]. congruence.
      * rewrite R in H0 by auto. rewrite (ws_fresh _ W b) in H0 by lia. discriminate.
  - rewrite E. pose proof (ws_store _ W o) as S. unfold store_shape in *.
    destruct O as [P Ow]. rewrite P in *. rewrite Ow in *.
    destruct S as [S1 [S2 [S3 [c0 [S4 [S5 S6]]]]]].
    assert (c0 = cs) by congruence. subst c0. rewrite <- Len in S5, S6.
    repeat split; auto. exists cs'. auto.
  - rewrite E. auto.
Qed.

(** Changing data members other than the pointer, within the block. *)
Lemma step1_upd w o g :
  world_shape w -> 
  ptr (g (ob w o)) = ptr (ob w o) -> owner_of (g (ob w o)) = owner_of (ob w o) ->
  store_shape (hp w) (g (ob w o)) ->
  step1 w (set_ob w o (g (ob w o))) o.
Proof.
  intros W P O S.
  assert (EO : forall b, owns (g (ob w o)) b <-> owns (ob w o) b).
  { intros b. unfold owns. rewrite P, O. tauto. }
  apply step1_build; auto.
  - intros. now apply ob_set_other.
  - intros b Hb. apply (ws_fresh _ W). exact Hb.
  - intros b Hb own cs H. rewrite ob_set_same. simpl in H.
    destruct Hb as [Hb|Hb]; [|rewrite (ws_fresh _ W b Hb) in H; discriminate].
    split; [|now apply EO].
    apply (ws_len _ W _ _ _ H). destruct (owns_live _ _ _ W Hb) as [c H']. congruence.
  - now rewrite ob_set_same.
  - intros b. rewrite ob_set_same. intros Hb. left. now apply EO.
Qed.

(** Replacing the memory of an object by a fresh block. *)
Lemma step1_fresh w w' o cs :
  world_shape w -> Z.of_nat (List.length cs) <= hlim (hp w) ->
  (forall o', o' <> o -> ob w' o' = ob w o') ->
  hlim (hp w') = hlim (hp w) -> hnext (hp w') = S (hnext (hp w)) ->
  hblk (hp w') (hnext (hp w)) = Live OwnCpp cs ->
  (forall b, b <> hnext (hp w) -> owns (ob w o) b -> hblk (hp w') b = Freed) ->
  (forall b, b <> hnext (hp w) -> ~ owns (ob w o) b -> hblk (hp w') b = hblk (hp w) b) ->
  kd (ob w' o) = KBuffer -> ptr (ob w' o) = Some (hnext (hp w)) -> alloc (ob w' o) = true ->
  0 <= sz (ob w' o) <= Z.of_nat (List.length cs) ->
  0 <= cap (ob w' o) <= Z.of_nat (List.length cs) ->
  step1 w w' o.
Proof.
  intros W Len Oth Lim Nx B Fre Keep K P Al Sz Cp.
  assert (OO : owns (ob w' o) (hnext (hp w))).
  { split; auto. unfold owner_of. now rewrite K. }
  assert (FN : ~ owns (ob w o) (hnext (hp w))).
  { intros O. destruct (owns_live _ _ _ W O) as [c H]. pose proof (live_lt _ _ _ _ W H). lia. }
  apply step1_build; auto.
  - lia.
  - intros b Hb. rewrite Keep; [apply (ws_fresh _ W); lia|lia|].
    intros O. destruct (owns_live _ _ _ W O) as [c H]. pose proof (live_lt _ _ _ _ W H). lia.
  - intros b Hb Nb. apply Keep; auto. lia.
  - intros b Hb own cs0 H.
    destruct (Nat.eq_dec b (hnext (hp w))) as [->|Ne].
    + rewrite B in H. injection H as <- <-. split; auto.
    + exfalso. destruct (owns_dec (ob w o) b) as [O|O].
      * rewrite Fre in H; auto. discriminate.
      * destruct Hb as [Hb|Hb]; [contradiction|].
        rewrite Keep in H by auto. rewrite (ws_fresh _ W b) in H by lia. discriminate.
  - unfold store_shape. rewrite P. split; [lia|]. split; [lia|]. split; [auto|].
    exists cs. unfold owner_of. rewrite K. repeat split; auto; lia.
  - intros b [Hb _]. right. assert (b = hnext (hp w)) by congruence. lia.
Qed.

(** All outcomes of [resize] of an owning store. *)
Definition resize_post (w w' : world) (o : oid) (n c : Z) : Prop :=
  step1 w w' o /\
  kd (ob w' o) = KBuffer /\ sty (ob w' o) = sty (ob w o) /\ mp (ob w' o) = mp (ob w o) /\
  todel (ob w' o) = todel (ob w o) /\
  sz (ob w' o) = n /\ alloc (ob w' o) = true /\ ptr (ob w' o) <> None /\
  n <= cap (ob w' o) /\
  (if cap (ob w o) <? n then
     cap (ob w' o) = c /\
     forall i, Z.of_nat i < n -> nth i (cells_of w' o) None = Some (zero_of (sty (ob w o)))
   else cap (ob w' o) = cap (ob w o) /\ ptr (ob w' o) = ptr (ob w o) /\
        cells_of w' o = cells_of w o).

Lemma resize_done w o n c :
  world_shape w -> kd (ob w o) = KBuffer -> 1 <= n -> cap115 n = Done c -> n <= c ->
  (cap (ob w o) < n -> c <= hlim (hp w)) ->
  (cap (ob w o) < n -> alloc (ob w o) = true -> ptr (ob w o) <> None) ->
  exists w', resize o n w = (Done tt, w') /\ resize_post w w' o n c.
Proof.
  intros W K Hn C Hc HL HP.
  pose proof (ws_store _ W o) as S. unfold store_shape in S.
  unfold resize. replace (1 <=? n) with true by (symmetry; now apply Z.leb_le).
  rewrite bind_ass_true, bind_st.
  destruct (cap (ob w o) <? n) eqn:Cn.
  - (* a new block is made *)
    apply Z.ltb_lt in Cn. specialize (HL Cn). specialize (HP Cn).
    assert (Lim := ws_lim _ W).
    (* common part: the world before fill *)
    assert (Fin : forall w0 s',
      (forall o', o' <> o -> ob w0 o' = ob w o') -> ob w0 o = s' ->
      hlim (hp w0) = hlim (hp w) -> hnext (hp w0) = Datatypes.S (hnext (hp w)) ->
      hblk (hp w0) (hnext (hp w)) = Live OwnCpp (repeat None (Z.to_nat c)) ->
      (forall b, b <> hnext (hp w) -> owns (ob w o) b -> hblk (hp w0) b = Freed) ->
      (forall b, b <> hnext (hp w) -> ~ owns (ob w o) b -> hblk (hp w0) b = hblk (hp w) b) ->
      kd s' = KBuffer -> sty s' = sty (ob w o) -> mp s' = mp (ob w o) -> todel s' = todel (ob w o) ->
      ptr s' = Some (hnext (hp w)) -> alloc s' = true -> sz s' = n -> cap s' = c ->
      exists w', fill o (zero_of (sty (ob w o))) w0 = (Done tt, w') /\ resize_post w w' o n c).
    { intros w0 s' Oth Es Lm Nx B Fre Keep Ks Ts Ms Ds Ps As Ss Cs.
      assert (ST : step1 w w0 o).
      { apply (step1_fresh w w0 o (repeat None (Z.to_nat c))); auto; rewrite ?Es; auto;
          rewrite ?repeat_length; try lia. }
      destruct (fill_ok w0 o (zero_of (sty (ob w o))) (hnext (hp w)) OwnCpp (repeat None (Z.to_nat c)))
        with (v' := zero_of (sty (ob w o))) as [w' [cs' [E [U [Len Nth]]]]]; rewrite ?Es; auto.
      { rewrite repeat_length. lia. }
      { rewrite Ts. apply cast_zero. }
      exists w'. split; [exact E|].
      assert (OO : owns (ob w0 o) (hnext (hp w))).
      { split; rewrite Es; auto. unfold owner_of. now rewrite Ks. }
      assert (ST2 : step1 w0 w' o).
      { eapply step1_cells; eauto. apply ST. }
      unfold resize_post. destruct U as [Eo [_ [_ [Bl _]]]]. rewrite Eo, Es.
      apply Z.ltb_lt in Cn. rewrite Cn.
      split; [eapply step1_trans; eauto|].
      repeat split; auto; try congruence; try lia.
      intros i Hi. unfold cells_of. rewrite Eo, Es, Ps, Bl, Nth, Es, Ss.
      replace (Z.of_nat i <? n) with true by (symmetry; now apply Z.ltb_lt). reflexivity. }
    destruct (ptr (ob w o)) as [a|] eqn:P.
    + (* old memory is returned *)
      destruct S as [S1 [S2 [S3 [cs [S4 [S5 S6]]]]]].
      assert (Oc : owner_of (ob w o) = OwnCpp) by (unfold owner_of; now rewrite K).
      assert (Lt := live_lt _ _ _ _ W S4).
      rewrite Oc in S4. rewrite S3. cbn [negb].
      rewrite bind_ass_true.
      rewrite (bind_done _ _ _ _ _ (del_own _ _ _ S4)).
      rewrite C, bind_lift_done, bind_upd.
      rewrite (bind_done _ _ _ _ _ (new_ok (set_ob (set_hp w (set_blk (hp w) a Freed)) o _) c HL)).
      rewrite !bind_upd.
      eapply Fin; try rewrite !ob_set_same; try reflexivity; simpl.
      * intros o' N. now rewrite !oid_eqb_neq.
      * now rewrite Nat.eqb_refl.
      * intros b Hb [Pb _]. assert (b = a) by congruence. subst b.
        replace (Nat.eqb a (hnext (hp w))) with false by (symmetry; apply Nat.eqb_neq; lia).
        now rewrite Nat.eqb_refl.
      * intros b Hb Nb.
        replace (Nat.eqb b (hnext (hp w))) with false by (symmetry; now apply Nat.eqb_neq).
        destruct (Nat.eqb_spec b a); [|reflexivity].
        subst b. exfalso. apply Nb. split; auto.
      * now rewrite oid_eqb_refl.
      * now rewrite oid_eqb_refl.
      * now rewrite oid_eqb_refl.
      * now rewrite oid_eqb_refl.
      * now rewrite oid_eqb_refl.
    + (* no memory yet *)
      destruct S as [S1 [S2 [S3 S4]]].
      destruct (alloc (ob w o)) eqn:A; [exfalso; now apply HP|].
      cbn [negb].
      unfold init. rewrite bind_assoc, bind_st, A, bind_assoc, bind_ret, bind_assoc, bind_upd.
      rewrite C, bind_assoc, bind_lift_done, bind_assoc, bind_upd, bind_assoc.
      rewrite (bind_done _ _ _ _ _ (new_ok (set_ob (set_ob w o _) o _) c HL)).
      rewrite bind_assoc, !bind_upd.
      eapply Fin; try rewrite !ob_set_same; try reflexivity; simpl.
      * intros o' N. now rewrite !oid_eqb_neq.
      * now rewrite Nat.eqb_refl.
      * intros b Hb [Pb _]. congruence.
      * intros b Hb Nb.
        now replace (Nat.eqb b (hnext (hp w))) with false by (symmetry; now apply Nat.eqb_neq).
      * now rewrite !oid_eqb_refl.
      * now rewrite !oid_eqb_refl.
      * now rewrite !oid_eqb_refl.
      * now rewrite !oid_eqb_refl.
      * now rewrite !oid_eqb_refl.
      * now rewrite !oid_eqb_refl.
  - (* within the capacity *)
    apply Z.ltb_ge in Cn.
    destruct (ptr (ob w o)) as [a|] eqn:P; [|exfalso; lia].
    destruct S as [S1 [S2 [S3 [cs [S4 [S5 S6]]]]]].
    rewrite S3. cbn [negb]. 
    eexists. split; [reflexivity|].
    unfold resize_post. replace (cap (ob w o) <? n) with false by (symmetry; now apply Z.ltb_ge).
    split; [|rewrite ob_set_same; simpl].
    + apply step1_upd; auto. unfold store_shape. simpl. rewrite P.
      repeat split; auto; try lia. exists cs. repeat split; auto; try lia.
    + repeat split; auto; try congruence; try lia.
      unfold cells_of. rewrite ob_set_same. reflexivity.
Qed.
