(** Properties C40..C42: interpolation. *)
From Coq Require Import String ZArith List Bool Lia Reals Lra.
From Coq.Floats Require Import SpecFloat.
From Flocq Require Import Core.Core.
From Verif Require Import Base Num StoreModel VecModel SubsetModel InterpModel FloatBridge Spec SpecExpr SpecHist SpecProg SpecVec
  SpecSub StoreProofs StoreOps VecProofs SubsetProofs SubsetThms NumProofs InterpProofs InterpProofs2 Examples PropVec PropSubset PropNum.
Import ListNotations.
Open Scope Z_scope.
Local Notation length := List.length (only parsing).

(** The expression e has the double elements fs. *)
Definition doubles (lm : libm) (w : world) (e : expr) (fs : list flt) : Prop := yields lm w e (map VD fs).
(** The first (or only) element of e is the number t. *)
Definition time_is (lm : libm) (w : world) (e : expr) (t : flt) : Prop :=
  exists v l, yields lm w e (v :: l) /\ v2f v = t.
(** Element i of a list of doubles, as a real number. *)
Definition real (fs : list flt) (i : nat) : R := fR (nth i fs fzero).
Definition increasing (ts : list flt) : Prop :=
  forall i j, (i < j < length ts)%nat -> (real ts i < real ts j)%R.
(** Different times are at least 2^-400 apart. *)
Definition spaced (ts : list flt) : Prop :=
  forall i j, (i < j < length ts)%nat -> (real ts i + bpow radix2 (-400) <= real ts j)%R.
(** Numbers of magnitude at most 2^500. *)
Definition moderate (fs : list flt) : Prop := Forall (fun f => num f /\ (Rabs (fR f) <= bpow radix2 500)%R) fs.

Lemma time_elem lm w te t : time_is lm w te t -> elem_f lm te 0 w = (Done t, w).
Proof.
  intros [v [l [[S E] V]]]. unfold elem_f.
  rewrite (bind_done _ _ _ _ _ (E O ltac:(simpl; lia))). simpl. now rewrite V.
Qed.
Lemma nth_num fs i : Forall num fs -> (i < length fs)%nat -> num (nth i fs fzero).
Proof. intros F H. rewrite Forall_forall in F. apply F. now apply nth_In. Qed.
Lemma nth_mod fs i : moderate fs -> (i < length fs)%nat ->
  valid (nth i fs fzero) /\ finite (nth i fs fzero) /\ (Rabs (real fs i) <= bpow radix2 500)%R.
Proof.
  intros F H. unfold moderate in F. rewrite Forall_forall in F.
  destruct (F (nth i fs fzero)) as [[A B] C]; [now apply nth_In|]. auto.
Qed.

(* ------------------------------------------------------------------ C40 *)

Theorem c40_before : forall lm w te tv pv t ts ys,
  time_is lm w te t -> doubles lm w tv ts -> doubles lm w pv ys -> length ts = length ys ->
  (4 <= length ts)%nat -> Z.of_nat (length ts) < 2 ^ 31 -> Forall num ts -> num t -> (fR t < real ts 0)%R ->
  cmr lm te tv pv w = (Done (nth 0 ys fzero), w).
Proof.
  intros lm w te tv pv t ts ys T Y1 Y2 L L4 L31 F [Vt Ft] H.
  unfold cmr. rewrite (bind_done _ _ _ _ _ (time_elem _ _ _ _ T)).
  rewrite (cmr_start lm w tv pv ts ys) by auto.
  destruct (nth_num ts 0 F ltac:(lia)) as [V0 F0].
  apply fltb_correct in H; auto. now rewrite H.
Qed.
Print Assumptions c40_before.

Theorem c40_after : forall lm w te tv pv t ts ys,
  time_is lm w te t -> doubles lm w tv ts -> doubles lm w pv ys -> length ts = length ys ->
  (4 <= length ts)%nat -> Z.of_nat (length ts) < 2 ^ 31 -> Forall num ts -> num t ->
  increasing ts -> (real ts (length ts - 1) < fR t)%R ->
  cmr lm te tv pv w = (Done (nth (length ts - 1) ys fzero), w).
Proof.
  intros lm w te tv pv t ts ys T Y1 Y2 L L4 L31 F [Vt Ft] I H.
  unfold cmr. rewrite (bind_done _ _ _ _ _ (time_elem _ _ _ _ T)).
  rewrite (cmr_start lm w tv pv ts ys) by auto.
  destruct (nth_num ts 0 F ltac:(lia)) as [V0 F0].
  destruct (nth_num ts (length ts - 1) F ltac:(lia)) as [V1 F1].
  replace (flt_ltb t (nth 0 ts fzero)) with false.
  - unfold real in H. apply fltb_correct in H; auto. now rewrite H.
  - symmetry. apply not_true_iff_false. rewrite fltb_correct by auto.
    specialize (I O (length ts - 1)%nat ltac:(lia)). unfold real in *. lra.
Qed.
Print Assumptions c40_after.

Lemma spaced_gap ts i j : spaced ts -> (i < length ts)%nat -> (j < length ts)%nat -> i <> j ->
  (bpow radix2 (-400) <= Rabs (real ts i - real ts j))%R.
Proof.
  intros S Hi Hj N. destruct (Nat.lt_ge_cases i j) as [C|C].
  - specialize (S i j ltac:(lia)). rewrite Rabs_left1; pose proof (bpow_gt_0 radix2 (-400)); lra.
  - specialize (S j i ltac:(lia)). rewrite Rabs_pos_eq; pose proof (bpow_gt_0 radix2 (-400)); lra.
Qed.
Lemma spaced_increasing ts : spaced ts -> increasing ts.
Proof. intros S i j H. specialize (S i j H). pose proof (bpow_gt_0 radix2 (-400)). lra. Qed.

Lemma inside_real ts t i : Forall num ts -> num t -> (S i < length ts)%nat ->
  (inside ts t i = true <-> (real ts i <= fR t < real ts (S i))%R).
Proof.
  intros F [Vt Ft] H. unfold inside, real. rewrite andb_true_iff.
  destruct (nth_num ts i F ltac:(lia)). destruct (nth_num ts (S i) F ltac:(lia)).
  rewrite fleb_correct, fltb_correct by auto. tauto.
Qed.

Lemma moderate_num fs : moderate fs -> Forall num fs.
Proof. apply Forall_impl. tauto. Qed.

(** The value at every data point except the last but one, with the doubles as
    they are computed.  Missing to the full property: the last but one point
    (reading it is undefined, see C41). *)
Theorem c40_knots_partial : forall lm w te tv pv t ts ys j,
  pow_at_zero lm ->
  time_is lm w te t -> doubles lm w tv ts -> doubles lm w pv ys -> length ts = length ys ->
  (4 <= length ts)%nat -> Z.of_nat (length ts) < 2 ^ 31 -> moderate ts -> moderate ys -> num t -> spaced ts ->
  (j < length ts)%nat -> j <> (length ts - 2)%nat -> fR t = real ts j ->
  exists r, cmr lm te tv pv w = (Done r, w) /\ num r /\ fR r = real ys j.
Proof.
  intros lm w te tv pv t ts ys j P T Y1 Y2 L L4 L31 Mt My [Vt Ft] S Hj Nj E.
  pose proof (moderate_num ts Mt) as F. pose proof (spaced_increasing ts S) as I.
  unfold cmr. rewrite (bind_done _ _ _ _ _ (time_elem _ _ _ _ T)).
  rewrite (cmr_start lm w tv pv ts ys) by auto.
  destruct (nth_num ts 0 F ltac:(lia)) as [V0 F0].
  destruct (nth_num ts (length ts - 1) F ltac:(lia)) as [V1 F1].
  replace (flt_ltb t (nth 0 ts fzero)) with false.
  2:{ symmetry. apply not_true_iff_false. rewrite fltb_correct, E by auto. fold (real ts 0).
      destruct j; [lra|]. specialize (I O (Datatypes.S j) ltac:(lia)). lra. }
  replace (flt_ltb (nth (length ts - 1) ts fzero) t) with false.
  2:{ symmetry. apply not_true_iff_false. rewrite fltb_correct, E by auto. fold (real ts (length ts - 1)).
      destruct (Nat.eq_dec j (length ts - 1)) as [->|N]; [lra|]. specialize (I j (length ts - 1)%nat ltac:(lia)). lra. }
  change 0 with (Z.of_nat 0).
  unfold bind. rewrite (find_at lm w tv pv ts ys Y1 L L4 L31 t j _ 0); try lia.
  2:{ intros m Hm. apply not_true_iff_false. rewrite inside_real by (auto; try lia; now split). rewrite E.
      destruct (Nat.eq_dec (Datatypes.S m) j) as [->|N]; [lra|]. specialize (I (Datatypes.S m) j ltac:(lia)). lra. }
  2:{ intros Hl. apply inside_real; [auto|now split|lia|]. rewrite E. specialize (I j (Datatypes.S j) ltac:(lia)). lra. }
  assert (G : forall i, (i < length ts)%nat -> valid (nth i ts fzero) /\ finite (nth i ts fzero) /\ (Rabs (real ts i) <= bpow radix2 500)%R)
    by (intros i Hi; apply nth_mod; auto).
  assert (Gy : forall i, (i < length ts)%nat -> valid (nth i ys fzero) /\ finite (nth i ys fzero) /\ (Rabs (real ys i) <= bpow radix2 500)%R)
    by (intros i Hi; apply nth_mod; auto; lia).
  assert (Use : forall a b c d, (a < length ts)%nat -> (b < length ts)%nat -> (c < length ts)%nat -> (d < length ts)%nat ->
    a <> c -> b <> c -> b <> d ->
    let q := mkKnots (nth a ts fzero) (nth b ts fzero) (nth c ts fzero) (nth d ts fzero)
                     (nth a ys fzero) (nth b ys fzero) (nth c ys fzero) (nth d ys fzero) in
    b = j -> num (cmr_value lm t q) /\ fR (cmr_value lm t q) = real ys j).
  { intros a b c d Ha Hb Hc Hd N1 N2 N3 q Eb. subst b.
    destruct (G a Ha) as [Va [Fa Ba]]. destruct (G j Hb) as [Vj [Fj Bj]].
    destruct (G c Hc) as [Vc [Fc Bc]]. destruct (G d Hd) as [Vd [Fd Bd]].
    destruct (Gy a Ha) as [Wa [Ha1 Ha2]]. destruct (Gy j Hb) as [Wj [Hj1 Hj2]].
    destruct (Gy c Hc) as [Wc [Hc1 Hc2]]. destruct (Gy d Hd) as [Wd [Hd1 Hd2]].
    destruct (diff_bound (nth c ts fzero) (nth j ts fzero) Vc Fc Vj Fj Bc Bj) as [Fcj _].
    pose proof (spaced_gap ts c j S Hc Hb (not_eq_sym N2)) as Gp.
    pose proof (diff_gap (nth c ts fzero) (nth j ts fzero) Vc Fc Vj Fj Bc Bj Gp) as D.
    assert (Nz : fR (fsub (nth c ts fzero) (nth j ts fzero)) <> 0%R).
    { intros Z. rewrite Z, Rabs_R0 in D. pose proof (bpow_gt_0 radix2 (-400)). lra. }
    pose proof (slope_finite _ _ _ _ Wc Hc1 Wa Ha1 Vc Fc Va Fa Hc2 Ha2 Bc Ba (spaced_gap ts c a S Hc Ha (not_eq_sym N1))) as S1.
    pose proof (slope_finite _ _ _ _ Wd Hd1 Wj Hj1 Vd Fd Vj Fj Hd2 Hj2 Bd Bj (spaced_gap ts d j S Hd Hb (not_eq_sym N3))) as S2.
    assert (B1000 : (Rabs (real ys j) <= bpow radix2 1000)%R) by (eapply Rle_trans; [exact Hj2|apply bpow_le; lia]).
    destruct (knot_value lm t q P Vt Ft Vj Fj E Fcj Nz S1 S2 Hc1 Wj Hj1 B1000) as [A [B C]].
    exact (conj (conj A B) C). }
  destruct (Nat.eqb_spec j (length ts - 1)) as [El|Nl].
  - rewrite (last_done lm w tv pv ts ys) by auto. cbv zeta. unfold ret. eexists. split; [reflexivity|].
    apply Use; lia.
  - rewrite (inner_done lm w tv pv ts ys) by (auto; lia). unfold ret. eexists. split; [reflexivity|].
    apply Use; try lia; unfold before; destruct j; lia.
Qed.
Print Assumptions c40_knots_partial.

(** x^2 and x^3 by multiplication. *)
Definition cube_lm : libm :=
  {| lm_un := fun _ z => z;
     lm_pow := fun a b => if flt_eqb b (i2f 2) then fmul a a else fmul (fmul a a) a |}.
Lemma cube_pow : pow_at_zero cube_lm.
Proof. intros []; split; reflexivity. Qed.
Definition ex_ts : list flt := map i2f [1; 2; 4; 7; 9].
Definition ex_ys : list flt := map i2f [10; -3; 5; 8; 6].
Lemma ints_num zs : (forall z, In z zs -> Z.abs z <= 2 ^ 53) -> Forall num (map i2f zs).
Proof.
  intros H. apply Forall_forall. intros f Hf. apply in_map_iff in Hf. destruct Hf as [z [<- Hz]].
  split; [apply i2f_valid|]. now apply i2f_exact, H.
Qed.
Lemma ints_moderate zs : (forall z, In z zs -> Z.abs z <= 2 ^ 53) -> moderate (map i2f zs).
Proof.
  intros H. apply Forall_forall. intros f Hf. apply in_map_iff in Hf. destruct Hf as [z [<- Hz]].
  destruct (i2f_exact z (H z Hz)) as [E F]. split; [split; [apply i2f_valid|exact F]|].
  rewrite E, <- abs_IZR. apply Rle_trans with (bpow radix2 53); [|apply bpow_le; lia].
  change (bpow radix2 53) with (IZR (2 ^ 53)). apply IZR_le. auto.
Qed.
Lemma real_int zs i : (forall z, In z zs -> Z.abs z <= 2 ^ 53) -> (i < length zs)%nat ->
  real (map i2f zs) i = IZR (nth i zs 0).
Proof.
  intros H Hi. unfold real. rewrite (nth_indep _ _ (i2f 0)) by now rewrite map_length. rewrite map_nth.
  apply i2f_exact, H. now apply nth_In.
Qed.
Lemma ints_spaced zs : (forall z, In z zs -> Z.abs z <= 2 ^ 53) ->
  (forall i j, (i < j < length zs)%nat -> nth i zs 0 < nth j zs 0) -> spaced (map i2f zs).
Proof.
  intros H I i j L. rewrite map_length in L. rewrite !real_int by (auto; lia).
  specialize (I i j L). assert (IZR (nth i zs 0%Z) + 1 <= IZR (nth j zs 0%Z))%R by (rewrite <- plus_IZR; apply IZR_le; lia).
  assert (bpow radix2 (-400) <= 1)%R by (change 1%R with (bpow radix2 0); apply bpow_le; lia). lra.
Qed.
Lemma ex_ts_range : forall z, In z [1; 2; 4; 7; 9] -> Z.abs z <= 2 ^ 53.
Proof. simpl. intros z H. lia. Qed.
Lemma ex_ys_range : forall z, In z [10; -3; 5; 8; 6] -> Z.abs z <= 2 ^ 53.
Proof. simpl. intros z H. lia. Qed.
Lemma ex_ts_spaced : spaced ex_ts.
Proof.
  apply ints_spaced; [exact ex_ts_range|]. intros i j H. simpl in H.
  destruct i as [|[|[|[|[|]]]]], j as [|[|[|[|[|]]]]]; simpl; lia.
Qed.
Example c40_ex : exists r, cmr cube_lm (ESca (VI 4)) (dbls ex_ts) (dbls ex_ys) ex_w = (Done r, ex_w) /\ fR r = 5%R.
Proof.
  destruct (c40_knots_partial cube_lm ex_w (ESca (VI 4)) (dbls ex_ts) (dbls ex_ys) (i2f 4) ex_ts ex_ys 2) as [r [E [_ V]]].
  - exact cube_pow.
  - exists (VI 4), []. split; [|reflexivity]. split; [reflexivity|]. intros [|i] Hi; [reflexivity|simpl in Hi; lia].
  - apply yields_tmp.
  - apply yields_tmp.
  - reflexivity.
  - simpl. lia.
  - simpl. lia.
  - apply ints_moderate, ex_ts_range.
  - apply ints_moderate, ex_ys_range.
  - split; [apply i2f_valid|]. now apply i2f_exact.
  - exact ex_ts_spaced.
  - simpl. lia.
  - simpl. lia.
  - unfold ex_ts. rewrite real_int by (try exact ex_ts_range; simpl; lia). change (nth 2 [1; 2; 4; 7; 9] 0) with 4. apply i2f_exact. lia.
  - exists r. split; [exact E|]. rewrite V. unfold ex_ys.
    rewrite real_int; [reflexivity|exact ex_ys_range|simpl; lia].
Qed.

Example c40_outside_ex : cmr cube_lm (ESca (VI 0)) (dbls ex_ts) (dbls ex_ys) ex_w = (Done (i2f 10), ex_w) /\
  cmr cube_lm (ESca (VI 11)) (dbls ex_ts) (dbls ex_ys) ex_w = (Done (i2f 6), ex_w).
Proof.
  assert (T : forall z, time_is cube_lm ex_w (ESca (VI z)) (i2f z)).
  { intros z. exists (VI z), []. split; [|reflexivity]. split; [reflexivity|]. intros [|i] Hi; [reflexivity|simpl in Hi; lia]. }
  assert (N : forall z, Z.abs z <= 2 ^ 53 -> num (i2f z)).
  { intros z H. split; [apply i2f_valid|]. now apply i2f_exact. }
  split.
  - apply (c40_before cube_lm ex_w (ESca (VI 0)) (dbls ex_ts) (dbls ex_ys) (i2f 0) ex_ts ex_ys); try reflexivity; auto.
    + apply yields_tmp.
    + apply yields_tmp.
    + simpl. lia.
    + apply ints_num, ex_ts_range.
    + apply N. lia.
    + unfold ex_ts. rewrite real_int by (try exact ex_ts_range; simpl; lia).
      destruct (i2f_exact 0) as [-> _]; [lia|]. simpl. lra.
  - apply (c40_after cube_lm ex_w (ESca (VI 11)) (dbls ex_ts) (dbls ex_ys) (i2f 11) ex_ts ex_ys); try reflexivity; auto.
    + apply yields_tmp.
    + apply yields_tmp.
    + simpl. lia.
    + apply ints_num, ex_ts_range.
    + apply N. lia.
    + apply spaced_increasing, ex_ts_spaced.
    + unfold ex_ts. rewrite real_int by (try exact ex_ts_range; simpl; lia).
      destruct (i2f_exact 11) as [-> _]; [lia|]. simpl. lra.
Qed.

(** Inputs of different or too small length. *)
Theorem c40_lengths : forall lm w te tv pv t, time_is lm w te t ->
  (esize w tv <> esize w pv -> cmr lm te tv pv w = (Thrown (Ass "x and y differ in length"), w)) /\
  (esize w tv = esize w pv -> esize w tv < 4 ->
   cmr lm te tv pv w = (Thrown (Ass "time and parameter require at least 4 elements"), w)).
Proof.
  intros lm w te tv pv t T. unfold cmr. rewrite !(bind_done _ _ _ _ _ (time_elem _ _ _ _ T)).
  unfold cmr_internal. rewrite !bind_get. cbv zeta. split.
  - intros N. apply Z.eqb_neq in N. rewrite N. apply bind_ass_false.
  - intros -> N. rewrite Z.eqb_refl, bind_ass_true.
    replace (4 <=? esize w pv) with false by (symmetry; apply Z.leb_gt; lia). apply bind_ass_false.
Qed.
Print Assumptions c40_lengths.
Example c40_short_ex : cmr cube_lm (ESca (VI 4)) (dbls [fone]) (dbls [fone]) ex_w =
  (Thrown (Ass "time and parameter require at least 4 elements"), ex_w).
Proof.
  apply (c40_lengths cube_lm ex_w (ESca (VI 4)) (dbls [fone]) (dbls [fone]) (i2f 4)); [|reflexivity|simpl; lia].
  exists (VI 4), []. split; [|reflexivity]. split; [reflexivity|]. intros [|i] Hi; [reflexivity|simpl in Hi; lia].
Qed.

(* ------------------------------------------------------------------ C41 *)

(** Any data (sorted or not, also NaN), any time point that does not lie in
    the last interval: a result, no undefined read, nothing changed.  Missing
    to the full property: time points in the last interval. *)
Theorem c41_reads_partial : forall lm w te tv pv t ts ys,
  time_is lm w te t -> doubles lm w tv ts -> doubles lm w pv ys -> length ts = length ys ->
  (4 <= length ts)%nat -> Z.of_nat (length ts) < 2 ^ 31 ->
  ~ (flt_leb (nth (length ts - 2) ts fzero) t = true /\ flt_ltb t (nth (length ts - 1) ts fzero) = true) ->
  exists r, cmr lm te tv pv w = (Done r, w).
Proof.
  intros lm w te tv pv t ts ys T Y1 Y2 L L4 L31 N.
  unfold cmr. rewrite (bind_done _ _ _ _ _ (time_elem _ _ _ _ T)).
  rewrite (cmr_start lm w tv pv ts ys) by auto.
  destruct (flt_ltb t (nth 0 ts fzero)); [eauto|].
  destruct (flt_ltb (nth (length ts - 1) ts fzero) t); [eauto|].
  destruct (first_inside ts ys L L4 t) as [j [Hj [Hm Hin]]].
  change 0 with (Z.of_nat 0). unfold bind.
  rewrite (find_at lm w tv pv ts ys Y1 L L4 L31 t j _ 0); try lia; [|intros m Hm2; apply Hm; lia|exact Hin].
  destruct (Nat.eqb_spec j (length ts - 1)) as [El|Nl].
  - rewrite (last_done lm w tv pv ts ys) by auto. eexists. reflexivity.
  - rewrite (inner_done lm w tv pv ts ys); auto; [eexists; reflexivity|].
    destruct (Nat.eq_dec j (length ts - 2)) as [->|N2]; [|lia]. exfalso. apply N.
    assert (I : inside ts t (length ts - 2) = true) by (apply Hin; lia).
    unfold inside in I. replace (S (length ts - 2)) with (length ts - 1)%nat in I by lia.
    now apply andb_true_iff in I.
Qed.
Print Assumptions c41_reads_partial.
Example c41_ex : exists r, cmr cube_lm (ESca d3) (dbls ex_ts) (dbls ex_ys) ex_w = (Done r, ex_w).
Proof.
  apply (c41_reads_partial cube_lm ex_w (ESca d3) (dbls ex_ts) (dbls ex_ys) (i2f 3) ex_ts ex_ys); try reflexivity.
  - exists d3, []. split; [|reflexivity]. split; [reflexivity|]. intros [|i] Hi; [reflexivity|simpl in Hi; lia].
  - apply yields_tmp.
  - apply yields_tmp.
  - simpl. lia.
  - vm_compute. intros [H _]. discriminate.
Qed.

(** In the last interval back() is read: element number length(times). *)
Lemma last_interval lm w te x pv t ts ys :
  time_is lm w te t -> doubles lm w (EVar x) ts -> doubles lm w pv ys -> length ts = length ys ->
  (4 <= length ts)%nat -> Z.of_nat (length ts) < 2 ^ 31 -> Forall num ts -> num t -> increasing ts ->
  (real ts (length ts - 2) <= fR t < real ts (length ts - 1))%R ->
  forall u, vec_back x w = (Undef u, w) -> cmr lm te (EVar x) pv w = (Undef u, w).
Proof.
  intros T Y1 Y2 L L4 L31 F Nt I H u B. pose proof Nt as [Vt Ft].
  unfold cmr. rewrite (bind_done _ _ _ _ _ (time_elem _ _ _ _ T)).
  rewrite (cmr_start lm w (EVar x) pv ts ys) by auto.
  destruct (nth_num ts 0 F ltac:(lia)) as [V0 F0].
  destruct (nth_num ts (length ts - 1) F ltac:(lia)) as [V1 F1].
  replace (flt_ltb t (nth 0 ts fzero)) with false.
  2:{ symmetry. apply not_true_iff_false. rewrite fltb_correct by auto. fold (real ts 0).
      specialize (I O (length ts - 2)%nat ltac:(lia)). lra. }
  replace (flt_ltb (nth (length ts - 1) ts fzero) t) with false.
  2:{ symmetry. apply not_true_iff_false. rewrite fltb_correct by auto. fold (real ts (length ts - 1)). lra. }
  change 0 with (Z.of_nat 0). unfold bind.
  rewrite (find_at lm w (EVar x) pv ts ys Y1 L L4 L31 t (length ts - 2) _ 0); try lia.
  2:{ intros m Hm. apply not_true_iff_false. rewrite inside_real by (auto; lia).
      destruct (Nat.eq_dec (S m) (length ts - 2)) as [->|N]; [lra|]. specialize (I (S m) (length ts - 2)%nat ltac:(lia)). lra. }
  2:{ intros Hl. apply inside_real; [auto|auto|lia|]. replace (S (length ts - 2)) with (length ts - 1)%nat by lia. exact H. }
  replace (length ts - 2 =? length ts - 1)%nat with false by (symmetry; apply Nat.eqb_neq; lia).
  rewrite (inner_back lm w (EVar x) pv ts ys) by auto.
  unfold back_f, bind. rewrite B. reflexivity.
Qed.

(** The time vector is a variable whose memory holds exactly its elements (a
    borrowed vector; an own vector of 4 to 6 elements): out-of-bounds read. *)
Theorem c41_last_interval_refuted : forall lm w te x pv t ts ys a o cs,
  time_is lm w te t -> doubles lm w (EVar x) ts -> doubles lm w pv ys -> length ts = length ys ->
  (4 <= length ts)%nat -> Z.of_nat (length ts) < 2 ^ 31 -> Forall num ts -> num t -> increasing ts ->
  (real ts (length ts - 2) <= fR t < real ts (length ts - 1))%R ->
  ptr (ob w (OD x)) = Some a -> hblk (hp w) a = Live o cs -> length cs = length ts ->
  cmr lm te (EVar x) pv w = (Undef UB_oob, w).
Proof.
  intros lm w te x pv t ts ys a o cs T Y1 Y2 L L4 L31 F Nt I H P B Lc.
  apply (last_interval lm w te x pv t ts ys); auto.
  unfold vec_back. rewrite bind_st. unfold rd. rewrite P, B.
  replace (sz (ob w (OD x))) with (Z.of_nat (length cs)).
  - replace (_ && _) with false; [reflexivity|]. symmetry. apply andb_false_intro2. apply Z.ltb_irrefl.
  - destruct Y1 as [S _]. simpl in S. rewrite S, map_length. lia.
Qed.
Print Assumptions c41_last_interval_refuted.
(** With spare memory after the elements, its first element is used (undefined
    when it was never written, as after an assignment that made room). *)
Theorem c41_spare_refuted : forall lm w te x pv t ts ys a o cs,
  time_is lm w te t -> doubles lm w (EVar x) ts -> doubles lm w pv ys -> length ts = length ys ->
  (4 <= length ts)%nat -> Z.of_nat (length ts) < 2 ^ 31 -> Forall num ts -> num t -> increasing ts ->
  (real ts (length ts - 2) <= fR t < real ts (length ts - 1))%R ->
  ptr (ob w (OD x)) = Some a -> hblk (hp w) a = Live o cs -> (length ts < length cs)%nat ->
  nth (length ts) cs None = None ->
  cmr lm te (EVar x) pv w = (Undef UB_uninit, w).
Proof.
  intros lm w te x pv t ts ys a o cs T Y1 Y2 L L4 L31 F Nt I H P B Lc N.
  apply (last_interval lm w te x pv t ts ys); auto.
  unfold vec_back. rewrite bind_st. unfold rd. rewrite P, B.
  assert (Sx : sz (ob w (OD x)) = Z.of_nat (length ts)).
  { destruct Y1 as [S _]. simpl in S. now rewrite S, map_length. }
  rewrite Sx. replace (_ && _) with true.
  - rewrite Nat2Z.id, N. reflexivity.
  - symmetry. apply andb_true_intro. split; [apply Z.leb_le|apply Z.ltb_lt]; lia.
Qed.
Print Assumptions c41_spare_refuted.

(** A vector variable 0 holding 1, 2, 4, 7, 9. *)
Definition ex5_ops : list sop :=
  [ SNew (OD 0) TDouble 5; SSet (OD 0) 0 (VD (i2f 1)); SSet (OD 0) 1 (VD (i2f 2)); SSet (OD 0) 2 (VD (i2f 4));
    SSet (OD 0) 3 (VD (i2f 7)); SSet (OD 0) 4 (VD (i2f 9)) ].
Definition ex5_w : world := snd (exec ex5_ops (empty_world 1000)).
Lemma ex5_holds : vholds ex5_w 0 (map VD ex_ts).
Proof.
  split; [vm_compute; reflexivity|]. intros i Hi. simpl in Hi.
  destruct i as [|[|[|[|[|i]]]]]; [vm_compute; reflexivity..|lia].
Qed.
(** The time 8 lies in the last interval, between 7 and 9. *)
Example c41_oob_ex : cmr cube_lm (ESca (VI 8)) (EVar 0) (dbls ex_ys) ex5_w = (Undef UB_oob, ex5_w).
Proof.
  apply (c41_last_interval_refuted cube_lm ex5_w (ESca (VI 8)) 0 (dbls ex_ys) (i2f 8) ex_ts ex_ys 0 OwnCpp
    (map Some (map VD ex_ts))); try reflexivity.
  - exists (VI 8), []. split; [|reflexivity]. split; [reflexivity|]. intros [|i] Hi; [reflexivity|simpl in Hi; lia].
  - apply vholds_yields. exact ex5_holds.
  - apply yields_tmp.
  - simpl. lia.
  - apply ints_num, ex_ts_range.
  - split; [apply i2f_valid|]. now apply i2f_exact.
  - apply spaced_increasing, ex_ts_spaced.
  - unfold ex_ts. rewrite !real_int by (try exact ex_ts_range; simpl; lia).
    destruct (i2f_exact 8) as [-> _]; [lia|]. simpl nth. simpl. lra.
Qed.

(** So the value at the last but one data point is not what C40 asks for. *)
Theorem c40_last_but_one_refuted : forall lm w te x pv t ts ys a o cs,
  time_is lm w te t -> doubles lm w (EVar x) ts -> doubles lm w pv ys -> length ts = length ys ->
  (4 <= length ts)%nat -> Z.of_nat (length ts) < 2 ^ 31 -> Forall num ts -> num t -> increasing ts ->
  fR t = real ts (length ts - 2) ->
  ptr (ob w (OD x)) = Some a -> hblk (hp w) a = Live o cs -> length cs = length ts ->
  cmr lm te (EVar x) pv w = (Undef UB_oob, w).
Proof.
  intros lm w te x pv t ts ys a o cs T Y1 Y2 L L4 L31 F Nt I H P B Lc.
  apply (c41_last_interval_refuted lm w te x pv t ts ys a o cs); auto. rewrite H.
  specialize (I (length ts - 2)%nat (length ts - 1)%nat ltac:(lia)). lra.
Qed.
Print Assumptions c40_last_but_one_refuted.
Example c40_last_but_one_ex : cmr cube_lm (ESca (VI 7)) (EVar 0) (dbls ex_ys) ex5_w = (Undef UB_oob, ex5_w).
Proof.
  apply (c40_last_but_one_refuted cube_lm ex5_w (ESca (VI 7)) 0 (dbls ex_ys) (i2f 7) ex_ts ex_ys 0 OwnCpp
    (map Some (map VD ex_ts))); try reflexivity.
  - exists (VI 7), []. split; [|reflexivity]. split; [reflexivity|]. intros [|i] Hi; [reflexivity|simpl in Hi; lia].
  - apply vholds_yields. exact ex5_holds.
  - apply yields_tmp.
  - simpl. lia.
  - apply ints_num, ex_ts_range.
  - split; [apply i2f_valid|]. now apply i2f_exact.
  - apply spaced_increasing, ex_ts_spaced.
Qed.

(** A vector variable 0 of length 7 made by resizing; its room for an eighth
    element was never written.  The time 6 lies between 1, ..., 5 | 6 and 7. *)
Definition ex7_ops : list sop :=
  [ SDefault (OD 0) TDouble; SResize (OD 0) 7 ] ++
  map (fun i => SSet (OD 0) i (VD (i2f (i + 1)))) [0; 1; 2; 3; 4; 5; 6].
Definition ex7_w : world := snd (exec ex7_ops (empty_world 1000)).
Definition ex7_ts : list flt := map i2f [1; 2; 3; 4; 5; 6; 7].
Lemma ex7_range : forall z, In z [1; 2; 3; 4; 5; 6; 7] -> Z.abs z <= 2 ^ 53.
Proof. simpl. intros z H. lia. Qed.
Lemma ex7_holds : vholds ex7_w 0 (map VD ex7_ts).
Proof.
  split; [vm_compute; reflexivity|]. intros i Hi. simpl in Hi.
  destruct i as [|[|[|[|[|[|[|i]]]]]]]; [vm_compute; reflexivity..|lia].
Qed.
Example c41_spare_ex : cmr cube_lm (ESca (VI 6)) (EVar 0) (EVar 0) ex7_w = (Undef UB_uninit, ex7_w).
Proof.
  apply (c41_spare_refuted cube_lm ex7_w (ESca (VI 6)) 0 (EVar 0) (i2f 6) ex7_ts ex7_ts 0 OwnCpp
    (map Some (map VD ex7_ts) ++ [None])); try reflexivity.
  - exists (VI 6), []. split; [|reflexivity]. split; [reflexivity|]. intros [|i] Hi; [reflexivity|simpl in Hi; lia].
  - apply vholds_yields. exact ex7_holds.
  - apply vholds_yields. exact ex7_holds.
  - simpl. lia.
  - apply ints_num, ex7_range.
  - split; [apply i2f_valid|]. now apply i2f_exact.
  - apply spaced_increasing. apply ints_spaced; [exact ex7_range|]. intros i j H. simpl in H.
    destruct i as [|[|[|[|[|[|[|]]]]]]], j as [|[|[|[|[|[|[|]]]]]]]; simpl; lia.
  - unfold ex7_ts. rewrite !real_int by (try exact ex7_range; simpl; lia).
    destruct (i2f_exact 6) as [-> _]; [lia|]. simpl. lra.
  - simpl. lia.
Qed.

(* ------------------------------------------------------------------ C42 *)

(** li with a vector variable as time vector always throws: it first reads
    the element after the last one. *)
Theorem c42_variable_refuted : forall lm w te x pv t l, yields lm w te (t :: l) ->
  exists m, li lm te (EVar x) pv w = (Thrown (Ass m), w).
Proof.
  intros lm w te x pv t l Y.
  assert (R : exists m, at_rd (OD x) (sz (ob w (OD x))) w = (Thrown (Ass m), w)).
  { unfold at_rd. rewrite bind_st. destruct (kd (ob w (OD x))); unfold get_at, sexp_get_at; rewrite bind_st.
    - destruct (alloc _); [|rewrite bind_ass_false; eauto]. rewrite bind_ass_true, Z.ltb_irrefl, bind_ass_false. eauto.
    - destruct (alloc _); [|rewrite bind_ass_false; eauto]. rewrite bind_ass_true, Z.ltb_irrefl, bind_ass_false. eauto.
    - destruct (ptr _); [|rewrite bind_ass_false; eauto]. rewrite bind_ass_true, Z.ltb_irrefl, bind_ass_false. eauto. }
  destruct R as [m R].
  assert (B : forall t0, exists m', li_body lm t0 (EVar x) pv w = (Thrown (Ass m'), w)).
  { intros t0. unfold li_body. rewrite bind_get. destruct (_ =? _); [|rewrite bind_ass_false; eauto].
    rewrite bind_ass_true. exists m. unfold elem_f, bind. cbn [elem esize]. now rewrite R. }
  assert (E : elem_f lm te 0 w = (Done (v2f t), w)) by (apply time_elem; exists t, l; auto).
  unfold li. destruct (is_vec te); cbn [is_vec andb negb].
  - destruct (is_vec pv); [|eexists; reflexivity].
    rewrite bind_get. destruct (_ =? 1); [|rewrite bind_ass_false; eauto].
    rewrite bind_ass_true, (bind_done _ _ _ _ _ E). apply B.
  - destruct (is_vec pv); [|eexists; reflexivity]. rewrite (bind_done _ _ _ _ _ E). apply B.
Qed.
Print Assumptions c42_variable_refuted.
Example c42_ex : exists m, li ex_lm (EVar 0) (EVar 0) (EVar 0) ex_w = (Thrown (Ass m), ex_w).
Proof.
  apply (c42_variable_refuted ex_lm ex_w (EVar 0) 0 (EVar 0) d1 [d2; d3]). apply vholds_yields. exact ex_holds0.
Qed.

(** Made by coca, rep, ..., a subset or a number: not a variable and not an
    operation. *)
Definition passing (e : expr) : Prop := match e with ETmp _ _ _ | ESub _ _ _ | ESca _ => True | _ => False end.

(** Vectors made by coca, rep, ... and subsets are refused. *)
Theorem c42_other_refuted : forall lm w te tv pv, passing tv \/ passing pv ->
  li lm te tv pv w = (Thrown (Ass "Input for interpolation has to be scalar, vec, vec"), w).
Proof.
  intros lm w te tv pv H.
  assert (K : is_vec tv = false \/ is_vec pv = false) by (destruct H as [H|H]; [left; destruct tv|right; destruct pv]; easy).
  unfold li. destruct K as [-> | ->]; rewrite ?andb_false_r, ?andb_false_l; reflexivity.
Qed.
Print Assumptions c42_other_refuted.
Example c42_other_ex : passing (dbls ex_ts) /\ passing (ESub (EVar 0) [0; 1] mp_none).
Proof. split; exact I. Qed.

(** Whatever the data, li never returns anything but the first value or the one
    "at" the length of the values (which a variable refuses to give): between
    two time points it uses a variable that was never set. *)
Theorem c42_never_refuted : forall lm w te tv pv y w', li lm te tv pv w = (Done y, w') ->
  exists v, y = v2f v /\ (fst (elem lm pv 0 w) = Done v \/ fst (elem lm pv (esize w pv) w) = Done v).
Proof.
  intros lm w te tv pv y w' H.
  assert (Bd : forall A (m : M world A) (f : A -> M world flt), snd (m w) = w -> bind m f w = (Done y, w') ->
            exists a, fst (m w) = Done a /\ f a w = (Done y, w')).
  { intros A m f Pm. unfold bind. destruct (m w) as [[a| |] w1]; cbn [fst snd] in *; subst; try discriminate. intros E. now exists a. }
  assert (Pe : forall e i, snd (elem_f lm e i w) = w).
  { intros e i. unfold elem_f, bind. pose proof (elem_pure lm e i w). destruct (elem lm e i w) as [[v| |] w1]; auto. }
  assert (Lp : forall t k i, li_loop lm tv pv t k i w <> (Done y, w')).
  { intros t k. induction k as [|k IH]; intros i E; [discriminate|]. cbn [li_loop] in E.
    apply Bd in E; [|apply Pe]. destruct E as [a [_ E]].
    apply Bd in E.
    - destruct E as [c [_ E]]. destruct c; [|now apply IH in E].
      do 4 (apply Bd in E; [|apply Pe]; destruct E as [? [_ E]]). discriminate.
    - destruct (flt_leb a t); [|reflexivity]. unfold bind. pose proof (Pe tv (i + 1)) as Q.
      destruct (elem_f lm tv (i + 1) w) as [[b| |] w1]; auto. }
  assert (Last : forall i, elem_f lm pv i w = (Done y, w') -> exists v, y = v2f v /\ fst (elem lm pv i w) = Done v).
  { intros i. unfold elem_f, bind. destruct (elem lm pv i w) as [[v| |] w1]; try discriminate.
    intros [= <- <-]. exists v. split; reflexivity. }
  assert (B : forall t, li_body lm t tv pv w = (Done y, w') ->
    exists v, y = v2f v /\ (fst (elem lm pv 0 w) = Done v \/ fst (elem lm pv (esize w pv) w) = Done v)).
  { intros t E. unfold li_body in E. rewrite bind_get in E. destruct (_ =? _); [rewrite bind_ass_true in E|rewrite bind_ass_false in E; discriminate].
    apply Bd in E; [|apply Pe]. destruct E as [b [_ E]]. destruct (flt_leb b t).
    - destruct (Last _ E) as [v [? ?]]. exists v. auto.
    - apply Bd in E; [|apply Pe]. destruct E as [a [_ E]]. destruct (flt_leb t a).
      + destruct (Last _ E) as [v [? ?]]. exists v. auto.
      + now apply Lp in E. }
  unfold li in H. destruct (_ && _ && _).
  - rewrite bind_get in H. destruct (_ =? 1); [rewrite bind_ass_true in H|rewrite bind_ass_false in H; discriminate].
    apply Bd in H; [|apply Pe]. destruct H as [t [_ H]]. exact (B t H).
  - destruct (_ && _ && _); [|discriminate]. apply Bd in H; [|apply Pe]. destruct H as [t [_ H]]. exact (B t H).
Qed.
Print Assumptions c42_never_refuted.

(** li of element-wise functions of the data (unary minus, exp, ...): the
    positions wrap around, so the first value is returned whatever the time. *)
Theorem c42_operation_refuted : forall lm w te t op e op' e' ts ys, time_is lm w te t -> esize w te = 1 -> num t ->
  is_sca e = false -> is_sca e' = false -> esize w e = esize w e' ->
  doubles lm w (EUn op e) ts -> doubles lm w (EUn op' e') ys -> ts <> [] -> Forall num ts ->
  li lm te (EUn op e) (EUn op' e') w = (Done (nth 0 ys fzero), w).
Proof.
  intros lm w te t op e op' e' ts ys T S1 [Vt Ft] N N' Se Y1 Y2 Nt F.
  assert (Wr : forall op e, is_sca e = false -> esize w e <> 0 ->
            elem lm (EUn op e) (esize w e) w = elem lm (EUn op e) 0 w).
  { intros o e0 Hs Hz. cbn [elem]. rewrite Hs, !bind_get. unfold modz.
    replace (esize w e0 =? 0) with false by (symmetry; now apply Z.eqb_neq).
    now rewrite Z_mod_same_full, Zmod_0_l. }
  assert (L1 : esize w e = Z.of_nat (length ts)) by (destruct Y1 as [A _]; simpl in A; now rewrite A, map_length).
  assert (L2 : esize w e' = Z.of_nat (length ys)) by (destruct Y2 as [A _]; simpl in A; now rewrite A, map_length).
  assert (P : (0 < length ts)%nat) by (destruct ts; simpl; [congruence|lia]).
  assert (E0 : elem_f lm (EUn op e) 0 w = (Done (nth 0 ts fzero), w)) by (apply (elem_f_at lm w _ ts 0); auto).
  assert (E0' : elem_f lm (EUn op' e') 0 w = (Done (nth 0 ys fzero), w)) by (apply (elem_f_at lm w _ ys 0); auto; lia).
  assert (B : li_body lm t (EUn op e) (EUn op' e') w = (Done (nth 0 ys fzero), w)).
  { unfold li_body. rewrite bind_get. cbn [esize]. rewrite Se, Z.eqb_refl, bind_ass_true.
    assert (E1 : elem_f lm (EUn op e) (esize w e') w = (Done (nth 0 ts fzero), w)).
    { rewrite <- E0. unfold elem_f, bind. rewrite <- Se. rewrite Wr by (auto; lia). reflexivity. }
    rewrite (bind_done _ _ _ _ _ E1).
    destruct (flt_leb (nth 0 ts fzero) t) eqn:C.
    - rewrite <- E0'. unfold elem_f, bind. rewrite Wr by (auto; lia). reflexivity.
    - rewrite (bind_done _ _ _ _ _ E0).
      destruct (nth_num ts 0 F P) as [V0 F0].
      replace (flt_leb t (nth 0 ts fzero)) with true; [exact E0'|].
      symmetry. apply fleb_correct; auto. apply not_true_iff_false in C. rewrite fleb_correct in C by auto. lra. }
  unfold li. pose proof (time_elem _ _ _ _ T) as E. cbn [is_vec]. destruct (is_vec te); cbn [andb negb].
  - rewrite bind_get, S1. change (1 =? 1) with true. rewrite bind_ass_true, (bind_done _ _ _ _ _ E). exact B.
  - rewrite (bind_done _ _ _ _ _ E). exact B.
Qed.
Print Assumptions c42_operation_refuted.
(** li(2, -(times), -(values)) with times = values = 1, 2, 3 is -1. *)
Example c42_operation_ex : li ex_lm (EBin OPlus (ESca d1) (ESca d1)) (EUn UNeg (EVar 0)) (EUn UNeg (EVar 0)) ex_w =
  (Done (i2f (-1)), ex_w).
Proof.
  assert (Y : doubles ex_lm ex_w (EUn UNeg (EVar 0)) (map i2f [-1; -2; -3])).
  { split; [reflexivity|]. intros i Hi. simpl in Hi. destruct i as [|[|[|i]]]; [vm_compute; reflexivity..|lia]. }
  apply (c42_operation_refuted ex_lm ex_w (EBin OPlus (ESca d1) (ESca d1)) (i2f 2) UNeg (EVar 0) UNeg (EVar 0)
    (map i2f [-1; -2; -3]) (map i2f [-1; -2; -3])); auto; try reflexivity.
  - exists d2, []. split; [|reflexivity]. split; [reflexivity|]. intros [|i] Hi; [reflexivity|simpl in Hi; lia].
  - split; [apply i2f_valid|]. now apply i2f_exact.
  - discriminate.
  - apply ints_num. simpl. intros z H. lia.
Qed.
