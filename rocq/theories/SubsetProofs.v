(** Positions computed by subsetting. *)
From Coq Require Import String ZArith List Bool Lia Reals Lra.
From Flocq Require Import Core.Core IEEE754.BinarySingleNaN.
From Verif Require Import Base Num StoreModel VecModel SubsetModel FloatBridge Spec SpecExpr SpecSub VecProofs.
Local Notation length := List.length (only parsing).
Import ListNotations.
Open Scope Z_scope.

Lemma wrap64_small z : 0 <= z < 2 ^ 64 -> wrap64 z = z.
Proof. intros H. unfold wrap64. now apply Z.mod_small. Qed.

Lemma int_res_ok z : - 2 ^ 31 <= z < 2 ^ 31 -> int_res z = Done z.
Proof.
  intros H. unfold int_res.
  assert (E : in_int z = true) by (unfold in_int, int_min, int_max; apply andb_true_iff; rewrite !Z.leb_le; lia).
  now rewrite E.
Qed.

Lemma store_ind_ok l : l <> [] -> Z.of_nat (length l) < 2 ^ 64 -> store_ind l = Done l.
Proof.
  intros Ne H. unfold store_ind. rewrite wrap64_small by lia.
  destruct l; [easy|]. cbn [length] in *.
  destruct (Z.eqb_spec (Z.of_nat (S (length l))) 0); [lia|].
  now rewrite Z.ltb_irrefl.
Qed.

Lemma iota_length n : length (iota n) = n.
Proof. unfold iota. now rewrite map_length, seq_length. Qed.

Lemma iota_nth n i d : (i < n)%nat -> nth i (iota n) d = Z.of_nat i.
Proof.
  intros H. unfold iota. rewrite nth_indep with (d' := Z.of_nat 0%nat) by (now rewrite map_length, seq_length).
  rewrite map_nth, seq_nth by lia. reflexivity.
Qed.

Lemma iota_in n z : In z (iota n) <-> 0 <= z < Z.of_nat n.
Proof.
  unfold iota. rewrite in_map_iff. split.
  - intros [k [<- H]]. apply in_seq in H. lia.
  - intros H. exists (Z.to_nat z). split; [lia|]. apply in_seq. lia.
Qed.

Lemma omap_list {A B} (f : A -> outcome B) l us (d : A) (d' : B) : length us = length l ->
  (forall i, (i < length l)%nat -> f (nth i l d) = Done (nth i us d')) -> omap f l = Done us.
Proof.
  revert us. induction l as [|a l IH]; intros [|u us] L H; try discriminate; auto.
  simpl in L |- *. pose proof (H 0%nat ltac:(simpl; lia)) as H0. cbn [nth] in H0. rewrite H0. cbn [obind].
  rewrite (IH us); [reflexivity|lia|]. intros i Hi. exact (H (S i) ltac:(simpl; lia)).
Qed.

Lemma omap_iota {B} (f : Z -> outcome B) n us (d' : B) : length us = n ->
  (forall i, (i < n)%nat -> f (Z.of_nat i) = Done (nth i us d')) -> omap f (iota n) = Done us.
Proof.
  intros L H. apply omap_list with (d := 0) (d' := d').
  - now rewrite iota_length.
  - rewrite iota_length. intros i Hi. rewrite iota_nth by auto. auto.
Qed.

Lemma omap_nth {A B} (f : A -> outcome B) l us i d d' : omap f l = Done us -> (i < length l)%nat ->
  f (nth i l d) = Done (nth i us d').
Proof.
  revert us i. induction l as [|a l IH]; intros us i H Hi; simpl in *; [lia|].
  destruct (f a) as [b| |] eqn:E; try discriminate. cbn [obind] in H.
  destruct (omap f l) as [bs| |] eqn:E2; try discriminate. injection H as <-.
  destruct i as [|i]; auto. cbn [nth]. apply IH; auto. lia.
Qed.

Lemma omap_map {A B} (g : A -> B) l : omap (fun a => Done (g a)) l = Done (map g l).
Proof. induction l; simpl; auto. now rewrite IHl. Qed.

Lemma omap_same {A B} (f : A -> outcome B) (g : A -> B) l : (forall a, In a l -> f a = Done (g a)) ->
  omap f l = Done (map g l).
Proof.
  induction l as [|a l IH]; intros H; simpl; auto.
  rewrite (H a) by now left. simpl. rewrite IH by (intros; apply H; now right). reflexivity.
Qed.

(* ------------------------------------------------------------------ masks *)

Lemma true_at_filter bs k : true_at bs (Z.of_nat k)
  = map Z.of_nat (filter (fun i => nth (i - k) bs false) (seq k (length bs))).
Proof.
  revert k. induction bs as [|b bs IH]; intros k; cbn [true_at length seq filter map]; auto.
  replace (k - k)%nat with 0%nat by lia. cbn [nth].
  replace (Z.of_nat k + 1) with (Z.of_nat (S k)) by lia. rewrite IH.
  assert (E : filter (fun i => nth (i - S k) bs false) (seq (S k) (length bs))
            = filter (fun i => nth (i - k) (b :: bs) false) (seq (S k) (length bs))).
  { apply filter_ext_in. intros i Hi. apply in_seq in Hi.
    replace (i - k)%nat with (S (i - S k)) by lia. reflexivity. }
  rewrite E. destruct b; reflexivity.
Qed.

Lemma true_at_spec bs : true_at bs 0 = map Z.of_nat (filter (fun i => nth i bs false) (seq 0 (length bs))).
Proof.
  change 0 with (Z.of_nat 0). rewrite true_at_filter. f_equal. apply filter_ext.
  intros i. now rewrite Nat.sub_0_r.
Qed.

Lemma true_at_range bs i z : In z (true_at bs i) -> i <= z < i + Z.of_nat (length bs).
Proof.
  revert i. induction bs as [|b bs IH]; intros i; cbn [true_at length]; [intros []|].
  destruct b; simpl; intros H.
  - destruct H as [H|H]; [lia|]. apply IH in H. lia.
  - apply IH in H. lia.
Qed.

Lemma true_at_nonempty bs i : In true bs -> true_at bs i <> [].
Proof.
  revert i. induction bs as [|b bs IH]; intros i; simpl; [intros []|].
  destruct b; [easy|]. intros [H|H]; [easy|]. auto.
Qed.

Lemma mask_scan_ok bs d i : 0 <= i -> 0 < d -> i + Z.of_nat (length bs) <= d -> d < 2 ^ 64 ->
  mask_scan bs i 0 d = Done (true_at bs i).
Proof.
  intros Hi Hd. revert i Hi. induction bs as [|b bs IH]; intros i Hi H H64; cbn [mask_scan true_at length] in *; auto.
  assert (M : modz i d = Done i).
  { unfold modz. destruct (Z.eqb_spec d 0); [lia|]. now rewrite Z.mod_small by lia. }
  rewrite M. cbn [obind].
  replace (if (i =? 0) && negb (i =? 0) then 0 + 1 else 0) with 0 by (destruct (i =? 0); reflexivity).
  rewrite IH by lia. cbn [obind]. rewrite wrap64_small by lia.
  replace (i - 0 * d) with i by lia. destruct b; reflexivity.
Qed.

Lemma positions_ok bs d : Z.of_nat (length bs) = d -> In true bs -> d < 2 ^ 64 ->
  positions bs d = Done (true_at bs 0).
Proof.
  intros L T H. unfold positions. pose proof (true_at_nonempty bs 0 T) as N.
  rewrite mask_scan_ok; try lia.
  - destruct (true_at bs 0); easy.
  - destruct bs; simpl in *; [easy|lia].
Qed.

Lemma to_int_small z : - 2 ^ 31 <= z < 2 ^ 31 -> to_int z = z.
Proof.
  intros H. unfold to_int.
  destruct (Z.ltb_spec (z mod 2 ^ 32) (2 ^ 31)) as [L|L].
  - destruct (Z_lt_le_dec z 0).
    + exfalso. rewrite <- (Z_mod_plus_full z 1), Z.mod_small in L by lia. lia.
    + apply Z.mod_small. lia.
  - destruct (Z_lt_le_dec z 0).
    + rewrite <- (Z_mod_plus_full z 1) in *. rewrite Z.mod_small by lia. lia.
    + rewrite Z.mod_small in L by lia. lia.
Qed.

Lemma positions_int_ok bs d : Z.of_nat (length bs) = d -> In true bs -> d <= int_max ->
  positions_int bs d = Done (true_at bs 0).
Proof.
  intros L T H. unfold int_max in H. unfold positions_int. rewrite positions_ok by (auto; lia). cbn [obind]. f_equal.
  rewrite <- map_id. apply map_ext_in. intros z Hz. apply true_at_range in Hz.
  apply to_int_small. lia.
Qed.

(* ------------------------------------------------------------ conversions *)

Lemma int_part_trunc f z : int_part f z -> ftrunc f = Some z.
Proof. intros [V [F <-]]. now apply ftrunc_correct. Qed.

Lemma int_part_ge f z : int_part f z -> 1 <= z -> flt_leb fone f = true.
Proof.
  intros [V [F E]] H.
  assert (O : fR fone = 1%R /\ finite fone) by (apply (i2f_exact 1); simpl; lia).
  apply fleb_correct; auto; [apply i2f_valid|apply O|]. rewrite (proj1 O).
  destruct (Rle_or_lt 0 (fR f)) as [P|P].
  - rewrite Ztrunc_floor in E by auto. pose proof (Zfloor_lb (fR f)). rewrite E in *.
    apply (IZR_le 1) in H. lra.
  - rewrite Ztrunc_ceil in E by lra. pose proof (Zceil_le (fR f) 0 ltac:(lra)) as Q.
    rewrite Zceil_IZR in Q. lia.
Qed.

Lemma int_part_f2size f z : int_part f z -> 0 <= z < 2 ^ 64 -> f2size f = Done z.
Proof.
  intros I H. unfold f2size. rewrite (int_part_trunc _ _ I).
  destruct (Z.leb_spec 0 z); [|lia]. destruct (Z.ltb_spec z (2 ^ 64)); [|lia]. reflexivity.
Qed.

Lemma int_part_f2int f z : int_part f z -> - 2 ^ 31 <= z < 2 ^ 31 -> f2int f = Done z.
Proof.
  intros I H. unfold f2int. rewrite (int_part_trunc _ _ I).
  pose proof (int_res_ok z H) as R. unfold int_res in R. destruct (in_int z); [reflexivity|discriminate].
Qed.

Lemma convert_dbl_ok f z : int_part f z -> 1 <= z < 2 ^ 31 -> convert_dbl f = Done z.
Proof.
  intros I H. unfold convert_dbl. rewrite (int_part_f2int f z) by (auto; lia). cbn [obind].
  rewrite (int_part_ge f z) by (auto; lia). apply int_part_f2size; auto. lia.
Qed.

Lemma convert_sub_ok f z : int_part f z -> 1 <= z < 2 ^ 31 -> convert_sub f = Done z.
Proof.
  intros I H. unfold convert_sub. rewrite (int_part_f2int f z) by (auto; lia). cbn [obind].
  rewrite (int_part_ge f z) by (auto; lia). apply int_part_f2size; auto. lia.
Qed.

(* ---------------------------------------------------------- index vectors *)

Lemma yields_at lm w e l t i : yields lm w e l -> (i < length l)%nat ->
  idx_at lm w t e (Z.of_nat i) =
    if stored e then cast t (nth i l (VB false)) else Done (VD (v2f (nth i l (VB false)))).
Proof. intros [_ H] L. unfold idx_at. now rewrite H. Qed.

Lemma truth_dbl b : truth (VD (v2f (VB b))) = b. Proof. now destruct b. Qed.
Lemma truth_read e v : truth (read e v) = truth v.
Proof. unfold read. destruct (own_type e); [reflexivity|]. destruct v as [b|z|f]; [now destruct b|apply i2f_truth|reflexivity]. Qed.

Lemma int_part_i2f z : Z.abs z <= 2 ^ 53 -> int_part (i2f z) z.
Proof.
  intros H. destruct (i2f_exact z H) as [E F]. split; [apply i2f_valid|]. split; [exact F|]. rewrite E. apply Ztrunc_IZR.
Qed.

(** Differences and sums of small ints are exact in double. *)
Lemma rnd_int q : Z.abs q <= 2 ^ 53 -> rnd (IZR q) = IZR q /\ (Rabs (IZR q) <= bpow radix2 1000)%R.
Proof.
  intros H. split; [apply round_generic; auto with typeclass_instances; apply generic_int; exact H|].
  rewrite <- abs_IZR. apply Rle_trans with (bpow radix2 53); [|apply bpow_le; lia].
  change (bpow radix2 53) with (IZR (2 ^ 53)). apply IZR_le. exact H.
Qed.
Lemma fsub_one z : Z.abs (z - 1) <= 2 ^ 53 -> Z.abs z <= 2 ^ 53 ->
  fR (fsub (i2f z) fone) = IZR (z - 1) /\ valid (fsub (i2f z) fone) /\ finite (fsub (i2f z) fone).
Proof.
  intros H1 H2. destruct (i2f_exact 1) as [E1 F1]; [simpl; lia|]. change (i2f 1) with fone in *.
  destruct (i2f_exact z H2) as [E F]. destruct (rnd_int (z - 1) H1) as [R K].
  assert (Es : (fR (i2f z) - fR fone)%R = IZR (z - 1)) by (rewrite E, E1, minus_IZR; reflexivity).
  destruct (fsub_correct (i2f z) fone) as [S1 [S2 S3]]; auto; try apply i2f_valid; [rewrite Es; exact K|].
  rewrite Es, R in S1. auto.
Qed.
Lemma size_less1_dbl z : 1 <= z < 2 ^ 31 -> size_less1 (VD (v2f (VI z))) = Done (z - 1).
Proof.
  intros H. cbn [size_less1 v2f]. destruct (fsub_one z) as [E [V F]]; [lia|lia|].
  apply int_part_f2size; [|lia]. split; [exact V|]. split; [exact F|]. rewrite E. apply Ztrunc_IZR.
Qed.

Lemma nth_map_val {A} (c : A -> val) l i a d : (i < length l)%nat -> nth i (map c l) d = c (nth i l a).
Proof. intros H. rewrite nth_indep with (d' := c a) by (now rewrite map_length). apply map_nth. Qed.

Lemma mask_own_ok lm w e bs : yields lm w e (map VB bs) -> mask_own lm w e = Done bs.
Proof.
  intros Y. unfold mask_own. destruct Y as [S Y]. rewrite S, map_length, Nat2Z.id.
  apply omap_iota with (d' := false); auto. intros i Hi.
  rewrite (yields_at lm w e (map VB bs)) by (try split; auto; now rewrite map_length).
  rewrite nth_map_val with (a := false) by auto.
  destruct (stored e); [reflexivity|]. cbn [obind]. now rewrite truth_dbl.
Qed.

Lemma mask_ones_ok lm w e bs : yields lm w e (map VB bs) -> mask_ones lm w e = Done bs.
Proof.
  intros Y. unfold mask_ones. destruct Y as [S Y]. rewrite S, map_length, Nat2Z.id.
  apply omap_iota with (d' := false); auto. intros i Hi.
  rewrite (yields_at lm w e (map VB bs)) by (try split; auto; now rewrite map_length).
  rewrite nth_map_val with (a := false) by auto.
  destruct (stored e); cbn [cast obind]; now destruct (nth i bs false).
Qed.

Lemma mask_scan_len bs : forall i j c d ps, mask_scan bs i c d = Done ps -> length ps = length (true_at bs j).
Proof.
  induction bs as [|b r IH]; intros i j c d ps H; cbn [mask_scan true_at] in *.
  - now injection H as <-.
  - destruct (modz i d); cbn [obind] in H; try discriminate.
    match type of H with context [mask_scan r ?a ?b d] => destruct (mask_scan r a b d) eqn:E end; cbn [obind] in H; try discriminate.
    injection H as <-. specialize (IH _ (j + 1) _ _ _ E). destruct b; simpl; congruence.
Qed.

(** For a mask of TRUE and FALSE the two ways to count agree. *)
Lemma positions_ones_same bs d : positions_ones bs bs d = positions_int bs d.
Proof.
  unfold positions_ones, positions_int, positions. destruct (true_at bs 0) eqn:E; [reflexivity|].
  destruct (mask_scan bs 0 0 d) as [ps| |] eqn:S; cbn [obind]; auto.
  pose proof (mask_scan_len _ _ 0 _ _ _ S) as L. rewrite E in L. rewrite L, Nat.ltb_irrefl. reflexivity.
Qed.

Lemma all_before_of lm w t e ps : all_less1 lm w t e = Done ps -> all_before lm w t e = Done ps.
Proof.
  unfold all_less1, all_before, less1_at. generalize (iota (Z.to_nat (esize w e))). intros l. revert ps.
  induction l as [|i l IH]; intros ps H; cbn [omap] in *; [exact H|].
  destruct (idx_at lm w t e i) as [v| |]; cbn [obind] in *; try discriminate.
  assert (K : forall z, int_less1 v = Done z -> (z0 <-o match v with VI z => Done z | VB b => Done (b2z b) | VD f => f2int f end ;; Done (z0 - 1)) = Done z).
  { intros z. destruct v as [b|k|f]; cbn [int_less1 obind]; unfold int_res.
    - match goal with |- context [if ?b then _ else _] => destruct b end; congruence.
    - match goal with |- context [if ?b then _ else _] => destruct b end; congruence.
    - destruct (f2int f); cbn [obind]; try discriminate. match goal with |- context [if ?b then _ else _] => destruct b end; congruence. }
  destruct (int_less1 v) as [z| |]; cbn [obind] in H; try discriminate. rewrite (K z eq_refl). cbn [obind].
  destruct (omap _ l) as [ps'| |] in H, IH; cbn [obind] in H; try discriminate.
  rewrite (IH ps' eq_refl). exact H.
Qed.

(** A mask of any positive length, recycled to n positions. *)
Lemma mask_rec_ok lm w e bs n : yields lm w e (map VB bs) -> bs <> [] ->
  mask_rec lm w e n = Done (map (fun i => nth (i mod length bs) bs false) (seq 0 (Z.to_nat n))).
Proof.
  intros Y Ne. unfold mask_rec.
  assert (L : (0 < length bs)%nat) by (destruct bs; simpl; [easy|lia]).
  assert (S : esize w e = Z.of_nat (length bs)) by (destruct Y as [S _]; now rewrite map_length in S).
  apply omap_iota with (d' := false); [now rewrite map_length, seq_length|]. intros i Hi.
  unfold modz. rewrite S. destruct (Z.eqb_spec (Z.of_nat (length bs)) 0); [lia|]. cbn [obind].
  assert (B : (i mod length bs < length bs)%nat) by (apply Nat.mod_upper_bound; lia).
  rewrite <- Nat2Z.inj_mod.
  rewrite (yields_at lm w e (map VB bs)) by (auto; now rewrite map_length).
  rewrite nth_map_val with (a := false) by auto.
  transitivity (Done (nth (i mod length bs) bs false)); [destruct (stored e); cbn [cast obind]; now rewrite ?truth_dbl|]. f_equal.
  symmetry. rewrite nth_indep with (d' := nth (0 mod length bs) bs false) by (now rewrite map_length, seq_length).
  rewrite (map_nth (fun i => nth (i mod length bs) bs false) (seq 0 (Z.to_nat n)) 0%nat).
  now rewrite seq_nth.
Qed.

Lemma mask_rec_same lm w e bs d : yields lm w e (map VB bs) -> bs <> [] -> Z.of_nat (length bs) = d ->
  mask_rec lm w e d = Done bs.
Proof.
  intros Y Ne <-. rewrite mask_rec_ok with (bs := bs) by auto. f_equal. rewrite Nat2Z.id.
  apply nth_ext with (d := false) (d' := false).
  - now rewrite map_length, seq_length.
  - rewrite map_length, seq_length. intros i Hi.
    rewrite nth_indep with (d' := nth (0 mod length bs) bs false) by (now rewrite map_length, seq_length).
    rewrite (map_nth (fun i => nth (i mod length bs) bs false) (seq 0 (length bs)) 0%nat).
    rewrite seq_nth by auto. now rewrite Nat.mod_small.
Qed.

Lemma all_less1_ints lm w e zs : yields lm w e (map VI zs) -> (forall z, In z zs -> 1 <= z < 2 ^ 31) ->
  all_less1 lm w TInt e = Done (map (fun z => z - 1) zs).
Proof.
  intros Y R. unfold all_less1.
  assert (S : esize w e = Z.of_nat (length zs)) by (destruct Y as [S _]; now rewrite map_length in S).
  rewrite S, Nat2Z.id. apply omap_iota with (d' := 0 - 1); [apply map_length|]. intros i Hi.
  unfold less1_at. rewrite (yields_at lm w e (map VI zs)) by (auto; now rewrite map_length).
  rewrite nth_map_val with (a := 0) by auto. specialize (R (nth i zs 0) (nth_In zs 0 Hi)).
  rewrite (map_nth (fun z => z - 1)). destruct (stored e); cbn [cast obind int_less1 v2f]; [apply int_res_ok; lia|].
  rewrite (int_part_f2int _ (nth i zs 0)) by (try apply int_part_i2f; lia). cbn [obind]. apply int_res_ok. lia.
Qed.

Lemma Forall2_nth {A B} (P : A -> B -> Prop) l m a b i : Forall2 P l m -> (i < length l)%nat ->
  P (nth i l a) (nth i m b).
Proof.
  intros H. revert i. induction H; intros i Hi; simpl in *; [lia|].
  destruct i; auto. apply IHForall2. lia.
Qed.

Lemma Forall2_len {A B} (P : A -> B -> Prop) l m : Forall2 P l m -> length l = length m.
Proof. induction 1; simpl; auto. Qed.

Lemma all_less1_dbls lm w e fs zs : yields lm w e (map VD fs) -> Forall2 int_part fs zs ->
  (forall z, In z zs -> 1 <= z < 2 ^ 31) ->
  all_less1 lm w TDouble e = Done (map (fun z => z - 1) zs).
Proof.
  intros Y F R. unfold all_less1. pose proof (Forall2_len _ _ _ F) as L.
  assert (S : esize w e = Z.of_nat (length fs)) by (destruct Y as [S _]; now rewrite map_length in S).
  rewrite S, Nat2Z.id. apply omap_iota with (d' := 0 - 1); [rewrite map_length; lia|]. intros i Hi.
  unfold less1_at. rewrite (yields_at lm w e (map VD fs)) by (auto; now rewrite map_length).
  rewrite nth_map_val with (a := fzero) by auto.
  replace (if stored e then cast TDouble (VD (nth i fs fzero)) else Done (VD (v2f (VD (nth i fs fzero))))) with (Done (VD (nth i fs fzero)))
    by (destruct (stored e); reflexivity). cbn [obind int_less1].
  pose proof (Forall2_nth int_part fs zs fzero 0 i F Hi) as P.
  assert (B : 1 <= nth i zs 0 < 2 ^ 31) by (apply R, nth_In; lia).
  rewrite (int_part_f2int _ (nth i zs 0)) by (auto; lia). cbn [obind].
  rewrite (map_nth (fun z => z - 1)). apply int_res_ok. lia.
Qed.

(* --------------------------------------------------------------- selects *)

Lemma selects_nonempty lm w d idx ps : selects lm w d idx ps -> ps <> [].
Proof.
  intros H. destruct H.
  - intros E. apply (f_equal (@length Z)) in E. rewrite map_length, seq_length in E. simpl in E. lia.
  - easy.
  - easy.
  - rewrite <- true_at_spec. now apply true_at_nonempty.
  - destruct zs; easy.
  - destruct zs; easy.
Qed.

Lemma selects_range lm w d idx ps p : selects lm w d idx ps -> In p ps -> 0 <= p < d.
Proof.
  intros H. destruct H; intros I.
  - apply (iota_in (Z.to_nat d)) in I. lia.
  - destruct I as [I|[]]. lia.
  - destruct I as [I|[]]. lia.
  - rewrite <- true_at_spec in I. apply true_at_range in I. lia.
  - apply in_map_iff in I. destruct I as [z [<- I]]. apply H1 in I. lia.
  - apply in_map_iff in I. destruct I as [z [<- I]]. apply H2 in I. lia.
Qed.

(** Vector subsetting selects what the index argument selects. *)
Lemma calc_ind_vector_selects lm w n idx ps : n <= int_max -> selects lm w n idx ps ->
  Z.of_nat (length ps) < 2 ^ 64 -> calc_ind_vector lm w n idx = Done ps.
Proof.
  intros Hn H L. unfold int_max in Hn. pose proof (selects_nonempty _ _ _ _ _ H) as N.
  pose proof (fun p => selects_range _ _ _ _ _ p H) as B.
  destruct H; cbn [calc_ind_vector].
  - now apply store_ind_ok.
  - rewrite int_res_ok by lia. cbn [obind]. rewrite wrap64_small by lia. now apply store_ind_ok.
  - rewrite (convert_sub_ok f z) by (auto; lia). cbn [obind]. rewrite wrap64_small by lia. now apply store_ind_ok.
  - change (bs0 <-o mask_rec lm w e n;; store_ind (true_at bs0 0) = Done (map Z.of_nat (filter (fun i => nth i bs false) (seq 0 (length bs))))).
    rewrite mask_rec_same with (bs := bs) by (auto; intros ->; easy). cbn [obind].
    rewrite true_at_spec. now apply store_ind_ok.
  - assert (S : esize w e = Z.of_nat (length zs)) by (destruct H as [S _]; now rewrite map_length in S).
    rewrite S, Nat2Z.id. rewrite (omap_iota _ _ (map (fun z => z - 1) zs) (0 - 1)).
    + now apply store_ind_ok.
    + apply map_length.
    + intros i Hi. rewrite (yields_at lm w e (map VI zs)) by (auto; now rewrite map_length).
      rewrite nth_map_val with (a := 0) by auto.
      rewrite (map_nth (fun z => z - 1)).
      specialize (H1 (nth i zs 0) (nth_In zs 0 Hi)).
      destruct (stored e); cbn [cast obind].
      * cbn [size_less1 int_less1]. rewrite int_res_ok by lia. cbn [obind]. now rewrite wrap64_small by lia.
      * apply size_less1_dbl. lia.
  - assert (S : esize w e = Z.of_nat (length fs)) by (destruct H as [S _]; now rewrite map_length in S).
    pose proof (Forall2_len _ _ _ H0) as LL.
    rewrite S, Nat2Z.id. rewrite (omap_iota _ _ (map (fun z => z - 1) zs) (0 - 1)).
    + now apply store_ind_ok.
    + rewrite map_length. lia.
    + intros i Hi. rewrite (yields_at lm w e (map VD fs)) by (auto; now rewrite map_length).
      rewrite nth_map_val with (a := fzero) by auto.
      replace (if stored e then cast TDouble (VD (nth i fs fzero)) else Done (VD (v2f (VD (nth i fs fzero))))) with (Done (VD (nth i fs fzero)))
        by (destruct (stored e); reflexivity). cbn [obind v2f].
      rewrite (map_nth (fun z => z - 1)).
      pose proof (Forall2_nth int_part fs zs fzero 0 i H0 Hi) as P.
      assert (Bz : 1 <= nth i zs 0 <= n) by (apply H2, nth_In; lia).
      rewrite (int_part_f2size _ (nth i zs 0)) by (auto; lia). cbn [obind].
      now rewrite wrap64_small by lia.
Qed.

Lemma filter_len {A} (f : A -> bool) l : (length (filter f l) <= length l)%nat.
Proof. induction l; simpl; auto. destruct (f a); simpl; lia. Qed.

(** ... and any mask, recycled. *)
Lemma calc_ind_vector_mask lm w n e bs : 0 <= n < 2 ^ 64 -> yields lm w e (map VB bs) -> bs <> [] ->
  let ps := map Z.of_nat (filter (fun i => nth (i mod length bs) bs false) (seq 0 (Z.to_nat n))) in
  (ps <> [] -> calc_ind_vector lm w n (IV TBool e) = Done ps) /\
  (ps = [] -> calc_ind_vector lm w n (IV TBool e) = Thrown zero_size).
Proof.
  intros Hn Y Ne ps. cbn [calc_ind_vector].
  change (omap _ _) with (mask_rec lm w e n).
  rewrite mask_rec_ok with (bs := bs) by auto. cbn [obind]. rewrite true_at_spec.
  rewrite map_length, seq_length.
  assert (E : map Z.of_nat (filter (fun i => nth i (map (fun i => nth (i mod length bs) bs false)
                (seq 0 (Z.to_nat n))) false) (seq 0 (Z.to_nat n))) = ps).
  { unfold ps. f_equal. apply filter_ext_in. intros i Hi. apply in_seq in Hi.
    rewrite nth_indep with (d' := nth (0 mod length bs) bs false) by (rewrite map_length, seq_length; lia).
    rewrite (map_nth (fun i => nth (i mod length bs) bs false) (seq 0 (Z.to_nat n)) 0%nat).
    now rewrite seq_nth by lia. }
  rewrite E. split; intros P.
  - apply store_ind_ok; auto. unfold ps. rewrite map_length.
    pose proof (filter_len (fun i => nth (i mod length bs) bs false) (seq 0 (Z.to_nat n))) as F.
    rewrite seq_length in F. lia.
  - rewrite P. reflexivity.
Qed.

(* ------------------------------------------------------------------ grids *)

Definition grid (nr : Z) (rs cs : list Z) : list Z := flat_map (fun c => map (fun r => c * nr + r) rs) cs.

Lemma grid_length nr rs cs : length (grid nr rs cs) = (length rs * length cs)%nat.
Proof.
  unfold grid. induction cs as [|c cs IH]; cbn [flat_map length]; [lia|].
  rewrite app_length, map_length, IH. lia.
Qed.

Lemma grid_column_major nr rs cs : column_major nr rs cs (grid nr rs cs).
Proof.
  split; [apply grid_length|]. intros a b. revert a.
  induction cs as [|c cs IH]; intros a Ha Hb; cbn [length] in Ha; [lia|].
  unfold grid. cbn [flat_map]. destruct a as [|a].
  - rewrite app_nth1 by (rewrite map_length; lia). cbn [nth Nat.mul Nat.add].
    rewrite nth_indep with (d' := c * nr + 0) by (rewrite map_length; lia).
    now rewrite (map_nth (fun r => c * nr + r)).
  - rewrite app_nth2 by (rewrite map_length; lia). rewrite map_length.
    replace (S a * length rs + b - length rs)%nat with (a * length rs + b)%nat by lia.
    cbn [nth]. apply IH; lia.
Qed.

Lemma grid_of_grid nr nc rs cs : (forall r, In r rs -> 0 <= r < nr) -> (forall c, In c cs -> 0 <= c < nc) ->
  nr * nc <= 2 ^ 64 -> grid_of nr rs cs = grid nr rs cs.
Proof.
  intros R C H. unfold grid_of, grid. rewrite !flat_map_concat_map. f_equal.
  apply map_ext_in. intros c Hc. apply map_ext_in. intros r Hr.
  apply wrap64_small. specialize (R r Hr). specialize (C c Hc). nia.
Qed.

Lemma grid_row nr r cs : map (fun c => wrap64 (c * nr + r)) cs = grid_of nr [r] cs.
Proof. unfold grid_of. induction cs; cbn [map flat_map app]; auto. Qed.

Lemma grid_col nr rs c : map (fun r => wrap64 (c * nr + r)) rs = grid_of nr rs [c].
Proof. unfold grid_of. cbn [flat_map]. now rewrite app_nil_r. Qed.

Lemma grid_all nr nc : 0 <= nr -> 0 <= nc -> grid nr (iota (Z.to_nat nr)) (iota (Z.to_nat nc)) = iota (Z.to_nat (nr * nc)).
Proof.
  intros Hr Hc. rewrite Z2Nat.inj_mul by auto. rewrite <- (Z2Nat.id nr) at 1 by auto.
  generalize (Z.to_nat nr) (Z.to_nat nc). clear. intros a b.
  induction b as [|b IH].
  - rewrite Nat.mul_0_r. reflexivity.
  - unfold iota at 2. rewrite seq_S, map_app. cbn [map Nat.add].
    unfold grid in *. rewrite flat_map_app. unfold iota in IH at 2. rewrite IH.
    cbn [flat_map]. rewrite app_nil_r. unfold iota.
    replace (a * S b)%nat with (a * b + a)%nat by lia. rewrite seq_app, map_app. f_equal.
    rewrite map_map. cbn [Nat.add].
    assert (G : forall m s, map (fun x => Z.of_nat b * Z.of_nat a + Z.of_nat x) (seq s m) =
              map Z.of_nat (seq (a * b + s) m)).
    { induction m as [|m IHm]; intros s; cbn [map seq]; auto. rewrite IHm. f_equal; [lia|]. f_equal. f_equal. lia. }
    rewrite G. f_equal. f_equal. lia.
Qed.

(** The double product for a whole column and an exact position. *)
Lemma double_position nr nc c z r : int_part c z -> fR c = IZR z -> 1 <= z <= nc -> 0 <= r < nr ->
  nr * nc <= 2 ^ 53 -> f2size (fadd (fmul (fsub c fone) (i2f nr)) (i2f r)) = Done ((z - 1) * nr + r).
Proof.
  intros [V [F T]] E Hz Hr B.
  assert (B0 : 0 <= (z - 1) * nr <= 2 ^ 53) by nia.
  assert (B1 : 0 <= (z - 1) * nr + r <= 2 ^ 53) by nia.
  assert (B2 : nr <= 2 ^ 53) by nia. assert (B3 : nc <= 2 ^ 53) by nia.
  assert (K : forall q, 0 <= q <= 2 ^ 53 -> (Rabs (IZR q) <= bpow radix2 1000)%R).
  { intros q Hq. rewrite <- abs_IZR. apply Rle_trans with (bpow radix2 53); [|apply bpow_le; lia].
    change (bpow radix2 53) with (IZR (2 ^ 53)). apply IZR_le. lia. }
  assert (G : forall q, 0 <= q <= 2 ^ 53 -> rnd (IZR q) = IZR q).
  { intros q Hq. apply round_generic; auto with typeclass_instances. apply generic_int. lia. }
  destruct (i2f_exact 1) as [E1 F1]; [simpl; lia|]. change (i2f 1) with fone in *.
  destruct (i2f_exact nr) as [En Fn]; [lia|]. destruct (i2f_exact r) as [Er Fr]; [lia|].
  assert (Es : (fR c - fR fone)%R = IZR (z - 1)) by (rewrite E, E1, minus_IZR; reflexivity).
  destruct (fsub_correct c fone) as [S1 [S2 S3]]; auto; [apply i2f_valid|rewrite Es; apply K; lia|].
  rewrite Es, G in S1 by lia.
  assert (Em : (fR (fsub c fone) * fR (i2f nr))%R = IZR ((z - 1) * nr)) by (rewrite S1, En, mult_IZR; reflexivity).
  destruct (fmul_correct (fsub c fone) (i2f nr)) as [M1 [M2 M3]]; auto; [apply i2f_valid|rewrite Em; apply K; lia|].
  rewrite Em, G in M1 by lia.
  assert (Ea : (fR (fmul (fsub c fone) (i2f nr)) + fR (i2f r))%R = IZR ((z - 1) * nr + r))
    by (rewrite M1, Er, plus_IZR; reflexivity).
  destruct (fadd_correct (fmul (fsub c fone) (i2f nr)) (i2f r)) as [A1 [A2 A3]]; auto;
    [apply i2f_valid|rewrite Ea; apply K; lia|].
  rewrite Ea, G in A1 by lia.
  apply int_part_f2size; [|lia]. split; [auto|split; auto]. rewrite A1. apply Ztrunc_IZR.
Qed.

Lemma yields_size {A} (c : A -> val) lm w e l : yields lm w e (map c l) -> esize w e = Z.of_nat (length l).
Proof. intros [H _]. now rewrite map_length in H. Qed.

(** The same with an integer row read as a double. *)
Lemma double_position_row nr nc c z : 1 <= z <= nr -> 0 <= c < nc -> 1 <= nr <= 2 ^ 31 - 1 -> nr * nc <= 2 ^ 53 ->
  f2size (fadd (i2f (c * nr)) (fsub (i2f z) fone)) = Done (c * nr + (z - 1)).
Proof.
  intros Hz Hc Hn B. destruct (fsub_one z) as [E [V F]]; [lia|lia|].
  destruct (i2f_exact (c * nr)) as [Ec Fc]; [nia|].
  assert (Ea : (fR (i2f (c * nr)) + fR (fsub (i2f z) fone))%R = IZR (c * nr + (z - 1))) by (rewrite E, Ec, plus_IZR; reflexivity).
  destruct (rnd_int (c * nr + (z - 1))) as [R K]; [nia|].
  destruct (fadd_correct (i2f (c * nr)) (fsub (i2f z) fone)) as [A1 [A2 A3]]; auto; [apply i2f_valid|rewrite Ea; exact K|].
  rewrite Ea, R in A1. apply int_part_f2size; [|nia]. split; [auto|split; auto]. rewrite A1. apply Ztrunc_IZR.
Qed.

Lemma yields_ints_at lm w e zs i : yields lm w e (map VI zs) -> (i < length zs)%nat -> stored e = false ->
  idx_at lm w TInt e (Z.of_nat i) = Done (VD (i2f (nth i zs 0))).
Proof.
  intros Y L S. rewrite yields_at with (l := map VI zs) by (rewrite ?map_length; auto).
  rewrite nth_map_val with (a := 0) by auto. now rewrite S.
Qed.

Lemma int_cols_ok lm w nr nc e rows zs : yields lm w e (map VI zs) -> (forall z, In z zs -> 1 <= z <= nc) ->
  1 <= nr <= 2 ^ 31 - 1 -> nc <= 2 ^ 31 - 1 -> (forall r, In r rows -> 0 <= r < nr) -> exact_int nr nc e ->
  int_cols lm w nr e rows = Done (grid_of nr rows (map (fun z => z - 1) zs)).
Proof.
  intros Y R Hn Hc Hr X. unfold int_cols. unfold exact_int in X. rewrite <- stored_own in X. destruct (stored e) eqn:S.
  { rewrite all_less1_ints with (zs := zs); auto. intros z Hz. apply R in Hz. lia. }
  specialize (X eq_refl). rewrite (yields_size VI lm w e zs Y), Nat2Z.id.
  rewrite (omap_iota _ _ (map (fun c => map (fun r => wrap64 (c * nr + r)) rows) (map (fun z => z - 1) zs)) []).
  - cbn [obind]. unfold grid_of. now rewrite flat_map_concat_map.
  - now rewrite !map_length.
  - intros i Hi. rewrite yields_ints_at with (zs := zs) by auto. cbn [obind v2f].
    pose proof (R _ (nth_In zs 0 Hi)) as Hz. set (z := nth i zs 0) in *.
    transitivity (Done (map (fun r => wrap64 ((z - 1) * nr + r)) rows)).
    + apply omap_same. intros r Ir. pose proof (Hr r Ir). rewrite wrap64_small by lia.
      rewrite double_position with (nc := nc) (z := z); auto.
      * f_equal. symmetry. apply wrap64_small. nia.
      * apply int_part_i2f. lia.
      * apply i2f_exact. lia.
    + f_equal. rewrite map_map. rewrite nth_indep with (d' := map (fun r => wrap64 ((0 - 1) * nr + r)) rows) by (now rewrite map_length).
      now rewrite (map_nth (fun z => map (fun r => wrap64 ((z - 1) * nr + r)) rows)).
Qed.

Lemma int_rows_ok lm w nr nc e cols zs : yields lm w e (map VI zs) -> (forall z, In z zs -> 1 <= z <= nr) ->
  1 <= nr <= 2 ^ 31 - 1 -> nc <= 2 ^ 31 - 1 -> (forall c, In c cols -> 0 <= c < nc) -> exact_int nr nc e ->
  int_rows lm w nr e cols = Done (grid_of nr (map (fun z => z - 1) zs) cols).
Proof.
  intros Y R Hn Hc Hr X. unfold int_rows. unfold exact_int in X. rewrite <- stored_own in X. destruct (stored e) eqn:S.
  { rewrite all_less1_ints with (zs := zs); auto. intros z Hz. apply R in Hz. lia. }
  specialize (X eq_refl). rewrite (yields_size VI lm w e zs Y), Nat2Z.id.
  rewrite (omap_same _ (fun c => map (fun r => wrap64 (c * nr + r)) (map (fun z => z - 1) zs))).
  - cbn [obind]. unfold grid_of. now rewrite flat_map_concat_map.
  - intros c Ic. pose proof (Hr c Ic) as Hcc.
    rewrite (omap_iota _ _ (map (fun r => wrap64 (c * nr + r)) (map (fun z => z - 1) zs)) 0); [reflexivity|now rewrite !map_length|].
    intros i Hi. rewrite yields_ints_at with (zs := zs) by auto. cbn [obind v2f].
    pose proof (R _ (nth_In zs 0 Hi)) as Hz.
    assert (E : nth i (map (fun r => wrap64 (c * nr + r)) (map (fun z => z - 1) zs)) 0 = wrap64 (c * nr + (nth i zs 0 - 1))).
    { rewrite map_map. rewrite nth_indep with (d' := wrap64 (c * nr + (0 - 1))) by (now rewrite map_length).
      now rewrite (map_nth (fun z => wrap64 (c * nr + (z - 1)))). }
    rewrite E. set (z := nth i zs 0) in *.
    rewrite (wrap64_small (c * nr)) by nia. rewrite double_position_row with (nc := nc) by (auto; lia).
    f_equal. symmetry. apply wrap64_small. nia.
Qed.

Lemma store_grid nr nc rs cs : rs <> [] -> cs <> [] ->
  (forall r, In r rs -> 0 <= r < nr) -> (forall c, In c cs -> 0 <= c < nc) -> nr * nc <= 2 ^ 64 ->
  Z.of_nat (length rs * length cs) < 2 ^ 64 ->
  store_ind (grid_of nr rs cs) = Done (grid nr rs cs).
Proof.
  intros Nr Nc R C B L. rewrite grid_of_grid with (nc := nc) by auto. apply store_ind_ok.
  - intros E. apply (f_equal (@List.length Z)) in E. rewrite grid_length in E.
    destruct rs, cs; simpl in *; easy || lia.
  - now rewrite grid_length.
Qed.

Lemma int_loop_ok n : n <= 2 ^ 31 - 1 -> int_loop n = Done tt.
Proof. intros H. unfold int_loop, int_max. destruct (Z.leb_spec n (2 ^ 31 - 1)); [auto|lia]. Qed.

(** The scan of a mask of any length: entry i is position i mod d. *)
Lemma mask_scan_mod bs d i c : 0 <= i -> 0 < d < 2 ^ 64 -> c = (if i =? 0 then 0 else (i - 1) / d) ->
  mask_scan bs i c d = Done (map (fun z => z mod d) (true_at bs i)).
Proof.
  intros Hi Hd. revert i c Hi. induction bs as [|b bs IH]; intros i c Hi Hc; cbn [mask_scan true_at map]; auto.
  assert (M : modz i d = Done (i mod d)) by (unfold modz; destruct (Z.eqb_spec d 0); [lia|reflexivity]).
  rewrite M. cbn [obind].
  assert (C : (if (i mod d =? 0) && negb (i =? 0) then c + 1 else c) = i / d).
  { rewrite Hc. destruct (Z.eqb_spec i 0) as [->|Ni]; [rewrite andb_false_r, Z.div_0_l by lia; reflexivity|].
    rewrite andb_true_r. pose proof (Z_div_mod_eq_full i d) as Q. pose proof (Z.mod_pos_bound i d ltac:(lia)) as P.
    destruct (Z.eqb_spec (i mod d) 0) as [E|E].
    - enough ((i - 1) / d = i / d - 1) by lia. symmetry. apply (Z.div_unique _ _ _ (d - 1)); [lia|nia].
    - symmetry. symmetry. apply eq_sym. apply (Z.div_unique _ _ _ (i mod d - 1)); [lia|nia]. }
  rewrite C. rewrite (IH (i + 1) (i / d)); [|lia|].
  - cbn [obind]. destruct b; [|reflexivity]. cbn [map]. do 2 f_equal.
    rewrite (Z.mul_comm (i / d)), <- Z.mod_eq by lia. apply wrap64_small. pose proof (Z.mod_pos_bound i d). lia.
  - destruct (Z.eqb_spec (i + 1) 0); [lia|]. now replace (i + 1 - 1) with i by lia.
Qed.

Lemma positions_mod bs d : 0 < d < 2 ^ 64 -> In true bs ->
  positions bs d = Done (map (fun z => z mod d) (true_at bs 0)).
Proof.
  intros Hd T. unfold positions. pose proof (true_at_nonempty bs 0 T) as N.
  rewrite mask_scan_mod by (auto; lia). destruct (true_at bs 0); easy.
Qed.

Lemma positions_int_mod bs d : 0 < d <= 2 ^ 31 - 1 -> In true bs ->
  positions_int bs d = Done (map (fun z => z mod d) (true_at bs 0)).
Proof.
  intros Hd T. unfold positions_int. rewrite positions_mod by (auto; lia). cbn [obind]. f_equal.
  rewrite map_map. apply map_ext. intros z. apply to_int_small. pose proof (Z.mod_pos_bound z d). lia.
Qed.

(** What is known about a mask, and about a vector of positions. *)
Definition mask_facts lm w d (one : bool) e (ps : list Z) : Prop := exists bs,
  (if one then mask_rec lm w e d = Done bs /\ (d <? esize w e) = false else mask_own lm w e = Done bs /\ mask_ones lm w e = Done bs) /\
  positions bs d = Done ps /\ positions_int bs d = Done ps /\ true_at bs 0 <> [] /\ ps <> [].
Definition pos_facts lm w t e (ps : list Z) : Prop :=
  all_less1 lm w t e = Done ps /\ all_before lm w t e = Done ps /\ esize w e = Z.of_nat (length ps) /\ (Z.of_nat (length ps) =? 0) = false.

Lemma picks_nonempty lm w d one idx ps : picks lm w d one idx ps -> ps <> [].
Proof.
  intros H. destruct H as [i ps H|e bs ps _ _ _ _ N|e bs _ _ T]; auto.
  - exact (selects_nonempty _ _ _ _ _ H).
  - pose proof (true_at_nonempty bs 0 T) as N. rewrite true_at_spec in N.
    destruct (filter (fun i => nth i bs false) (seq 0 (length bs))); easy.
Qed.

Lemma picks_range lm w d one idx ps p : 0 < d -> picks lm w d one idx ps -> In p ps -> 0 <= p < d.
Proof.
  intros Hd H. destruct H as [i ps H|e bs ps _ _ _ -> _|e bs _ _ T]; intros I.
  - exact (selects_range _ _ _ _ _ _ H I).
  - apply in_map_iff in I. destruct I as [q [<- I]]. apply filter_In in I. destruct I as [I _]. apply in_seq in I. lia.
  - apply in_map_iff in I. destruct I as [q [<- I]]. apply Z.mod_pos_bound. lia.
Qed.

Lemma picks_mask lm w d one e ps : 0 < d <= 2 ^ 31 - 1 -> picks lm w d one (IV TBool e) ps -> mask_facts lm w d one e ps.
Proof.
  intros Hd S. pose proof (picks_nonempty _ _ _ _ _ _ S) as N. inversion S as [i ps' S'|e' bs ps' O Y L E N'|e' bs O Y T]; subst.
  - inversion S' as [| | |e' bs Y L T| |]; subst e' ps.
    exists bs. rewrite <- true_at_spec in *. split; [|split; [|split; [|split]]]; auto.
    + destruct one; [|split; [now apply mask_own_ok|now apply mask_ones_ok]]. split; [apply mask_rec_same; auto; intros ->; easy|].
      rewrite (yields_size VB lm w e bs Y). apply Z.ltb_ge. lia.
    + apply positions_ok; auto. lia.
    + apply positions_int_ok; auto. unfold int_max. lia.
  - assert (Nb : bs <> []).
    { intros ->. apply N. rewrite (filter_ext _ (fun _ => false)); [|now intros [|]; [|destruct n]].
      clear. now induction (seq 0 (Z.to_nat d)). }
    set (rb := map (fun i => nth (i mod length bs) bs false) (seq 0 (Z.to_nat d))).
    assert (Lr : length rb = Z.to_nat d) by (unfold rb; now rewrite map_length, seq_length).
    assert (E : true_at rb 0 = map Z.of_nat (filter (fun i => nth (i mod length bs) bs false) (seq 0 (Z.to_nat d)))).
    { rewrite true_at_spec, Lr. f_equal. apply filter_ext_in. intros i Hi. apply in_seq in Hi. unfold rb.
      rewrite nth_indep with (d' := nth (0 mod length bs) bs false) by (rewrite map_length, seq_length; lia).
      rewrite (map_nth (fun i => nth (i mod length bs) bs false)), seq_nth by lia. reflexivity. }
    assert (T : In true rb).
    { destruct (in_dec bool_dec true rb) as [T|T]; auto. exfalso. apply N. rewrite <- E. rewrite true_at_spec.
      rewrite (filter_ext_in _ (fun _ => false)); [clear; now induction (seq 0 (length rb))|].
      intros i Hi. apply in_seq in Hi. destruct (nth i rb false) eqn:Q; auto. exfalso. apply T. rewrite <- Q. apply nth_In. lia. }
    rewrite <- E. exists rb. split; [split|split; [|split; [|split]]].
    + rewrite mask_rec_ok with (bs := bs) by auto. reflexivity.
    + rewrite (yields_size VB lm w e bs Y). apply Z.ltb_ge. lia.
    + apply positions_ok; auto; lia.
    + apply positions_int_ok; auto; [lia|unfold int_max; lia].
    + now rewrite E.
    + now rewrite E.
  - assert (E : map (fun i => Z.of_nat i mod d) (filter (fun i => nth i bs false) (seq 0 (length bs))) =
      map (fun z => z mod d) (true_at bs 0)) by (rewrite true_at_spec, map_map; reflexivity).
    rewrite E in *. exists bs. split; [split; [now apply mask_own_ok|now apply mask_ones_ok]|]. split; [apply positions_mod; auto; lia|].
    split; [apply positions_int_mod; auto|]. split; auto. now apply true_at_nonempty.
Qed.

Lemma picks_other lm w d one i ps : (forall e, i <> IV TBool e) -> picks lm w d one i ps -> selects lm w d i ps.
Proof. intros N H. destruct H; auto; now elim (N e). Qed.

Lemma selects_pos lm w d t e ps : t <> TBool -> d <= 2 ^ 31 - 1 -> selects lm w d (IV t e) ps -> pos_facts lm w t e ps.
Proof.
  intros Ht Hd S. pose proof (selects_nonempty _ _ _ _ _ S) as N.
  assert (K : (Z.of_nat (length ps) =? 0) = false).
  { apply Z.eqb_neq. destruct ps; simpl; [easy|lia]. }
  inversion S as [| | | |e' zs Y L R|e' fs zs Y F L R]; subst; [easy| |].
  - assert (A : all_less1 lm w TInt e = Done (map (fun z => z - 1) zs)).
    { apply all_less1_ints; auto. intros z Hz. apply R in Hz. lia. }
    split; [|split; [|split]]; auto.
    + now apply all_before_of.
    + rewrite map_length. exact (yields_size VI lm w e zs Y).
  - assert (A : all_less1 lm w TDouble e = Done (map (fun z => z - 1) zs)).
    { apply all_less1_dbls with (fs := fs); auto. intros z Hz. apply R in Hz. lia. }
    split; [|split; [|split]]; auto.
    + now apply all_before_of.
    + rewrite map_length, (yields_size VD lm w e fs Y). f_equal. exact (Forall2_len _ _ _ F).
Qed.

(** All selector pairs. *)
Lemma calc_ind_matrix_picks lm w e iL iR nr nc rs cs :
  eim w e = true -> edim rows w e = Done nr -> edim cols w e = Done nc -> esize w e = nr * nc ->
  1 <= nr <= int_max -> 1 <= nc <= int_max ->
  picks lm w nr (single iR) iL rs -> picks lm w nc (single iL) iR cs ->
  Z.of_nat (length rs) <= int_max -> Z.of_nat (length cs) <= int_max ->
  good_pair nr nc iL iR ->
  calc_ind_matrix lm w e iL iR = Done (grid nr rs cs,
    if shaped_pair e iL iR then mkMP true (Z.of_nat (length rs)) (Z.of_nat (length cs)) else mp_none).
Proof.
  intros Im Dr Dc Sz Br Bc SL SR Lr Lc G. unfold int_max in *.
  destruct Br as [Pr Br], Bc as [Pc Bc].
  pose proof (picks_nonempty _ _ _ _ _ _ SL) as Nr. pose proof (picks_nonempty _ _ _ _ _ _ SR) as Nc.
  assert (Rr : forall p, In p rs -> 0 <= p < nr) by (intros p; eapply picks_range; eauto; lia).
  assert (Rc : forall p, In p cs -> 0 <= p < nc) by (intros p; eapply picks_range; eauto; lia).
  assert (B : nr * nc <= 2 ^ 64) by nia.
  assert (SG : store_ind (grid_of nr rs cs) = Done (grid nr rs cs)) by (apply (store_grid nr nc); auto; nia).
  assert (AR : length (iota (Z.to_nat nr)) = Z.to_nat nr) by apply iota_length.
  assert (AC : length (iota (Z.to_nat nc)) = Z.to_nat nc) by apply iota_length.
  assert (IC : forall ec, iR = IV TInt ec -> exact_int nr nc ec -> int_cols lm w nr ec rs = Done (grid_of nr rs cs)).
  { intros ec -> X. apply picks_other in SR; [|easy]. inversion SR; subst. apply int_cols_ok with (nc := nc); auto; lia. }
  assert (IR : forall er, iL = IV TInt er -> exact_int nr nc er -> int_rows lm w nr er cs = Done (grid_of nr rs cs)).
  { intros er -> X. apply picks_other in SL; [|easy]. inversion SL; subst. apply int_rows_ok with (nc := nc); auto; lia. }
  assert (Zr : (nr =? 0) = false) by (apply Z.eqb_neq; lia).
  assert (Zc : (nc =? 0) = false) by (apply Z.eqb_neq; lia).
  assert (Ir : int_loop nr = Done tt) by (apply int_loop_ok; lia).
  assert (Cz : convert_sz nr = Done nr) by (unfold convert_sz; destruct (Z.leb_spec 1 nr); [auto|lia]).
  unfold calc_ind_matrix. rewrite Im, Dr, Dc, Sz. cbn [negb obind].
  destruct iL as [l|r|r|tr er]; destruct iR as [rb|c|c|tc ec];
    cbn [good_pair] in G; try contradiction;
    cbn [single] in *;
    repeat match goal with
    | H : picks _ _ _ _ (IV TBool _) _ |- _ =>
        apply picks_mask in H; [|lia]; let bs := fresh "bs" in destruct H as [bs [? [? [? [? ?]]]]]
    | H : mask_rec _ _ _ _ = _ /\ _ |- _ => destruct H
    | H : mask_own _ _ _ = _ /\ _ |- _ => destruct H
    | t : ety |- _ => destruct t
    | H : picks _ _ _ _ _ _ |- _ => apply picks_other in H; [|easy]
    | H : selects _ _ _ (IB _) _ |- _ => inversion H; clear H; subst; fold (iota (Z.to_nat nr)) (iota (Z.to_nat nc)) in *
    | H : selects _ _ _ (IZ _) _ |- _ => inversion H; clear H; subst
    | H : selects _ _ _ (IF _) _ |- _ => inversion H; clear H; subst
    | H : selects _ _ _ (IV TInt _) _ |- _ => apply selects_pos in H; [|easy|lia]; destruct H as [? [? [? ?]]]
    | H : selects _ _ _ (IV TDouble _) _ |- _ =>
        let H' := fresh in pose proof H as H'; apply selects_pos in H'; [|easy|lia]; destruct H' as [? [? [? ?]]];
        inversion H; clear H; subst
    end; cbn [negb obind andb];
    repeat (rewrite ?AR, ?AC, ?Zr, ?Zc, ?Ir, ?Cz, ?Z.ltb_irrefl; cbn [obind orb];
      match goal with
      | H : mask_own _ _ _ = Done _ |- context [mask_own _ _ _] => rewrite H
      | H : mask_rec _ _ _ _ = Done _ |- context [mask_rec _ _ _ _] => rewrite H
      | H : mask_ones _ _ _ = Done _ |- context [mask_ones _ _ _] => rewrite H
      | |- context [positions_ones _ _ _] => rewrite positions_ones_same
      | H : positions _ _ = Done _ |- context [positions _ _] => rewrite H
      | H : positions_int _ _ = Done _ |- context [positions_int _ _] => rewrite H
      | H : all_less1 _ _ _ _ = Done _ |- context [all_less1 _ _ _ _] => rewrite H
      | H : all_before _ _ _ _ = Done _ |- context [all_before _ _ _ _] => rewrite H
      | |- context [int_cols _ _ _ _ _] => rewrite (IC _ eq_refl G)
      | |- context [int_rows _ _ _ _ _] => rewrite (IR _ eq_refl G)
      | H : esize w ?e = _ |- context [esize w ?e] => rewrite H
      | H : (_ =? 0) = false |- context [Z.of_nat _ =? 0] => rewrite H
      | H : (_ <? _) = false |- context [_ <? _] => rewrite H
      | |- context [int_res (?c - 1)] => rewrite (int_res_ok (c - 1)) by lia
      | H : int_part ?f ?z |- context [convert_dbl ?f] => rewrite (convert_dbl_ok f z) by (auto; lia)
      | H : int_part ?f ?z |- context [f2size ?f] => rewrite (int_part_f2size f z) by (auto; lia)
      | |- context [int_loop _] => rewrite int_loop_ok by lia
      | |- context [omap (fun j => Done _) _] => rewrite omap_map
      | H : store_ind _ = Done _ |- _ => rewrite H
      end).
  all: try reflexivity.
  all: cbn [obind]; rewrite ?grid_col, ?grid_row, ?AR, ?AC, ?Z2Nat.id by lia; try (rewrite SG; reflexivity); try reflexivity.
  - rewrite grid_all by lia. rewrite store_ind_ok; [| |rewrite iota_length; nia].
    { cbn [obind]. f_equal. f_equal. unfold shaped_pair. cbn [single negb andb].
      destruct e; cbn [operation negb emp eim edim] in *; try reflexivity;
        injection Dr as <-; injection Dc as <-.
      + match goal with |- context [mp ?o] => destruct (mp o) end; cbn in *; congruence.
      + destruct m; cbn in *; congruence.
      + destruct m; cbn in *; congruence. }
    intros E. apply (f_equal (@List.length Z)) in E. rewrite iota_length in E. simpl in E. nia.
  - destruct (true_at bs 0); [easy|]. reflexivity.
  - change [wrap64 ((c - 1) * nr + (r - 1))] with (grid_of nr [r - 1] [c - 1]). rewrite SG. reflexivity.
  - change [wrap64 ((z - 1) * nr + (r - 1))] with (grid_of nr [r - 1] [z - 1]). rewrite SG. reflexivity.
  - change [wrap64 ((c - 1) * nr + (z - 1))] with (grid_of nr [z - 1] [c - 1]). rewrite SG. reflexivity.
  - rewrite Nat2Z.id. destruct G as [[zc Ez] G53].
    assert (zc = z). { match goal with H : int_part c z |- _ => destruct H as [_ [_ T]] end. rewrite Ez, Ztrunc_IZR in T. auto. } subst zc.
    rewrite (omap_iota _ _ (grid nr (map (fun z => z - 1) zs) [z - 1]) 0).
    + cbn [obind]. rewrite store_ind_ok; [reflexivity| |rewrite grid_length; simpl; lia].
      intros E. apply (f_equal (@List.length Z)) in E. rewrite grid_length in E. destruct zs; simpl in *; easy || lia.
    + rewrite grid_length. simpl. lia.
    + intros i Hi.
      assert (L1 : less1_at lm w TDouble er (Z.of_nat i) = Done (nth i (map (fun z => z - 1) zs) 0)).
      { match goal with H : all_less1 lm w TDouble er = Done _ |- _ => unfold all_less1 in H;
          match goal with H' : esize w er = _ |- _ => rewrite H', Nat2Z.id in H end;
          generalize (omap_nth _ _ _ i 0 0 H) end.
        rewrite iota_length, iota_nth by auto. auto. }
      rewrite L1. cbn [obind]. rewrite double_position with (nc := nc) (z := z); auto; try lia.
      * f_equal. pose proof (grid_column_major nr (map (fun z => z - 1) zs) [z - 1]) as [_ CM].
        specialize (CM 0%nat i ltac:(simpl; lia) Hi). cbn [Nat.mul Nat.add nth] in CM. auto.
      * apply Rr. now apply nth_In.
Qed.

Lemma calc_ind_matrix_selects lm w e iL iR nr nc rs cs :
  eim w e = true -> edim rows w e = Done nr -> edim cols w e = Done nc -> esize w e = nr * nc ->
  nr <= int_max -> nc <= int_max ->
  selects lm w nr iL rs -> selects lm w nc iR cs ->
  Z.of_nat (length rs) <= int_max -> Z.of_nat (length cs) <= int_max ->
  good_pair nr nc iL iR ->
  calc_ind_matrix lm w e iL iR = Done (grid nr rs cs,
    if shaped_pair e iL iR then mkMP true (Z.of_nat (length rs)) (Z.of_nat (length cs)) else mp_none).
Proof.
  intros Im Dr Dc Sz Br Bc SL SR Lr Lc G.
  pose proof (selects_nonempty _ _ _ _ _ SL) as Nr. pose proof (selects_nonempty _ _ _ _ _ SR) as Nc.
  pose proof (fun p => selects_range _ _ _ _ _ p SL) as Rr. pose proof (fun p => selects_range _ _ _ _ _ p SR) as Rc.
  assert (Pr : 1 <= nr) by (destruct rs; [easy|specialize (Rr z (or_introl eq_refl)); lia]).
  assert (Pc : 1 <= nc) by (destruct cs; [easy|specialize (Rc z (or_introl eq_refl)); lia]).
  apply (calc_ind_matrix_picks lm w e iL iR nr nc); auto; now constructor.
Qed.
