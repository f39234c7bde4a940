(** Property C95: conversions between the element types. *)
From Coq Require Import ZArith Reals List Bool Lia Lra.
From Coq.Floats Require Import SpecFloat.
From Flocq Require Import Core.Core IEEE754.BinarySingleNaN.
From Verif Require Import Base Num StoreModel VecModel SubsetModel ProgModel LangModel FloatBridge Spec SpecExpr SpecVec SpecProg SpecConv
  CapProofs StoreProofs StoreOps VecProofs VecEval AvProofs Examples PropVec.
Import ListNotations.
Open Scope Z_scope.
Local Notation length := List.length (only parsing).

Lemma finite_dec d : {finite d} + {~ finite d}.
Proof. destruct d; cbn; auto. Qed.
Lemma f2b_real d : valid d -> (f2b d = true <-> (finite d -> fR d <> 0%R)).
Proof.
  intros V. destruct d as [s|s| |s m e]; cbn [f2b finite]; try tauto.
  - split; [discriminate|]. intros H. exfalso. now apply H.
  - split; [|auto]. intros _ _. cbn [SF2R]. apply F2R_neq_0. destruct s; cbn; discriminate.
Qed.
Lemma i2f_pos z : i2f z <> S754_zero true.
Proof.
  destruct (Z.eq_dec z 0) as [-> | N]; [vm_compute; discriminate|]. intros E. pose proof (i2f_truth z) as T. rewrite E in T. cbn in T.
  destruct (Z.eqb_spec z 0); [contradiction|discriminate T].
Qed.
Lemma in_int_range z : in_int z = true <-> - 2 ^ 31 <= z < 2 ^ 31.
Proof. unfold in_int, int_min, int_max. rewrite andb_true_iff, !Z.leb_le. lia. Qed.
Lemma truth_nonzero v : machine v -> (truth v = true <-> nonzero v).
Proof.
  destruct v as [b|z|d]; cbn [machine truth nonzero]; intros H; [tauto| |now apply f2b_real].
  destruct (Z.eqb_spec z 0); cbn; split; intros; try congruence; try discriminate; contradiction.
Qed.

(** Whatever the value and the type: the conversion is undefined if the value
    is a double whose integer part does not fit an int, a double that is not a
    number, or infinity, and an int is wanted; otherwise it gives the value the
    C++ standard asks for. *)
Theorem c95_conversion : forall t v, machine v ->
  (~ representable t v /\ cast t v = Undef UB_cast) \/
  (representable t v /\ exists v', cast t v = Done v' /\ converts t v v' /\ has_type t v' /\ machine v').
Proof.
  intros t v H. destruct t, v as [b|z|d]; cbn [representable cast].
  - right. split; [exact I|]. exists (VB b). repeat split; auto. now constructor.
  - right. split; [exact I|]. eexists. split; [reflexivity|]. split; [|split; exact I].
    destruct (Z.eqb_spec z 0); cbn [negb]; constructor; cbn; auto.
  - right. split; [exact I|]. eexists. split; [reflexivity|]. split; [|split; exact I].
    cbn [machine] in H. destruct (f2b d) eqn:E; constructor; cbn [nonzero]; [now apply f2b_real|]. intros K. apply (f2b_real d H) in K. congruence.
  - right. split; [exact I|]. eexists. split; [reflexivity|]. destruct b; cbn [b2z machine has_type]; repeat split; try constructor; lia.
  - right. split; [exact I|]. exists (VI z). cbn in H. repeat split; try (apply H). now constructor.
  - unfold f2int. destruct (finite_dec d) as [F|F].
    + rewrite (ftrunc_correct d F). destruct (in_int (Ztrunc (fR d))) eqn:R.
      * right. apply in_int_range in R. split; [auto|]. eexists. cbn [obind]. split; [reflexivity|]. split; [now constructor|]. split; [exact I|exact R].
      * left. split; [|reflexivity]. intros [_ K]. apply in_int_range in K. congruence.
    + left. split; [tauto|]. destruct d; cbn in F |- *; tauto.
  - right. split; [exact I|]. eexists. split; [reflexivity|]. cbn [v2f has_type machine].
    destruct (i2f_exact (b2z b)) as [A B]; [destruct b; cbn; lia|].
    split; [|split; [exact I|apply i2f_valid]]. constructor; auto using i2f_valid, i2f_pos. rewrite A. now destruct b.
  - right. split; [exact I|]. eexists. split; [reflexivity|]. cbn [v2f has_type machine] in *.
    destruct (i2f_exact z) as [A B]; [lia|]. split; [|split; [exact I|apply i2f_valid]]. constructor; auto using i2f_valid, i2f_pos.
  - right. split; [exact I|]. exists (VD d). cbn in H. repeat split; auto. now constructor.
Qed.
Print Assumptions c95_conversion.

(** No type but int can be missed, and nothing but doubles misses it. *)
Theorem c95_always : forall t v, machine v -> t <> TInt \/ (forall d, v <> VD d) -> representable t v.
Proof. intros t v _ [N|N]; destruct t, v; cbn; auto; [congruence|exfalso; now apply (N d)]. Qed.
Print Assumptions c95_always.

(** A double to std::size_t, as for the lengths and positions of vector() and
    matrix(). *)
Theorem c95_size : forall d,
  (finite d /\ 0 <= Ztrunc (fR d) < 2 ^ 64 /\ f2size d = Done (Ztrunc (fR d))) \/
  (~ (finite d /\ 0 <= Ztrunc (fR d) < 2 ^ 64) /\ f2size d = Undef UB_cast).
Proof.
  intros d. unfold f2size. destruct (finite_dec d) as [F|F].
  - rewrite (ftrunc_correct d F). destruct (Z.leb_spec 0 (Ztrunc (fR d))), (Z.ltb_spec (Ztrunc (fR d)) (2 ^ 64)); cbn [andb];
      [left; auto|right; split; auto; lia..].
  - right. split; [tauto|]. destruct d; cbn in F |- *; tauto.
Qed.
Print Assumptions c95_size.

(** x = y, for vectors of any two element types: if every element of y can be
    converted, x then has the converted elements and nothing else changed;
    otherwise the behaviour is undefined. *)
Lemma omap_seq (f : Z -> outcome val) (g : val -> outcome val) : forall l i,
  (forall k, (k < length l)%nat -> f (i + Z.of_nat k) = g (nth k l (VB false))) -> omap f (zseq i (length l)) = omap g l.
Proof.
  induction l as [|v l IH]; intros i H; [reflexivity|]. cbn [length zseq omap].
  pose proof (H 0%nat ltac:(cbn; lia)) as H0. rewrite Z.add_0_r in H0. cbn [nth] in H0. rewrite H0.
  rewrite (IH (i + 1)); [reflexivity|]. intros k Hk. replace (i + 1 + Z.of_nat k) with (i + Z.of_nat (S k)) by lia. apply (H (S k)). cbn; lia.
Qed.
Lemma value_of_var lm rho t y : value lm rho t (EVar y) = omap (cast t) (rho y).
Proof.
  unfold value. cbn [xsize]. rewrite Nat2Z.id. apply omap_seq. intros k Hk. cbn [xval]. unfold pick_val. rewrite Z.add_0_l, Nat2Z.id.
  now rewrite (nth_error_nth' (rho y) (VB false) Hk).
Qed.
Lemma omap_cast t : forall l, Forall machine l ->
  (Forall (representable t) l -> exists us, omap (cast t) l = Done us /\ Forall2 (converts t) l us /\ Forall (has_type t) us /\ Forall machine us) /\
  (Exists (fun v => ~ representable t v) l -> omap (cast t) l = Undef UB_cast).
Proof.
  induction 1 as [|v l H F [IH1 IH2]]; split.
  - intros _. exists []. repeat constructor.
  - intros X. inversion X.
  - intros R. inversion R; subst. destruct IH1 as [us [E [C [T Q]]]]; auto.
    destruct (c95_conversion t v H) as [[N _] | [_ [v' [E' [C' [T' Q']]]]]]; [contradiction|].
    exists (v' :: us). cbn [omap]. rewrite E'. cbn [obind]. rewrite E. repeat constructor; auto.
  - intros X. cbn [omap]. destruct (c95_conversion t v H) as [[_ E] | [R [v' [E _]]]]; rewrite E; [reflexivity|].
    cbn [obind]. inversion X; subst; [contradiction|]. now rewrite IH2.
Qed.
Theorem c95_assign : forall lm ty lim V w rho x y, repr w lim ty V rho -> In x V -> In y V -> rho y <> [] ->
  Z.of_nat (length (rho y)) <= max_len -> 2 * Z.of_nat (length (rho y)) <= lim -> Forall machine (rho y) ->
  (Forall (representable (ty x)) (rho y) -> exists w' us, assign lm x (EVar y) w = (Done tt, w') /\ repr w' lim ty V (setl rho x us) /\
     Forall2 (converts (ty x)) (rho y) us /\ Forall (has_type (ty x)) us /\ Forall machine us) /\
  (Exists (fun v => ~ representable (ty x) v) (rho y) -> exists w', assign lm x (EVar y) w = (Undef UB_cast, w')).
Proof.
  intros lm ty lim V w rho x y R Vx Vy N B1 B2 Mc.
  destruct (agrees_assign lm ty lim V x (EVar y) w rho R) as [w' [E G]].
  { cbn [cmd_wf vars wf_expr xsize]. repeat split; auto. intros z [<- | []]. exact Vy. }
  cbn [run_cmd spec_cmd xsize] in E, G. rewrite value_of_var in E, G.
  destruct (Z.eqb_spec (Z.of_nat (length (rho y))) 0) as [K|K]; [destruct (rho y); [congruence|cbn in K; lia]|].
  destruct (omap_cast (ty x) (rho y) Mc) as [P Q]. split; intros H.
  - destruct (P H) as [us [U [C [T M1]]]]. rewrite U in E, G. cbn [fst snd] in E, G. exists w', us. split; [exact E|]. split; [|auto].
    apply G. intros u; discriminate.
  - rewrite (Q H) in E. exists w'. exact E.
Qed.
Print Assumptions c95_assign.

(** Nothing is lost on the way to a type that has all the values of the first
    one, and back. *)
Theorem c95_back : forall t t' v, within t t' -> has_type t v -> machine v -> exists v', cast t' v = Done v' /\ cast t v' = Done v /\ has_type t' v' /\ machine v'.
Proof.
  intros t t' v W T Mc. destruct t, v as [b|z|d]; try contradiction; destruct t'; try contradiction; cbn [cast v2f].
  - exists (VB b). cbn. auto.
  - eexists. split; [reflexivity|]. destruct b; cbn; repeat split; auto; lia.
  - eexists. split; [reflexivity|]. cbn [cast]. rewrite i2f_truth. destruct b; (split; [reflexivity|split; [exact I|apply i2f_valid]]).
  - exists (VI z). cbn. auto.
  - eexists. split; [reflexivity|]. cbn [machine] in Mc. destruct (i2f_exact z) as [A B]; [lia|]. cbn [cast]. unfold f2int.
    rewrite (ftrunc_correct _ B), A, Ztrunc_IZR. replace (in_int z) with true by (symmetry; apply in_int_range; lia).
    split; [reflexivity|split; [exact I|apply i2f_valid]].
  - exists (VD d). cbn in *. auto.
Qed.
Print Assumptions c95_back.
Example c95_back_ex : within TInt TDouble /\ has_type TInt (VI (-7)) /\ machine (VI (-7)) /\ cast TInt (VD (i2f (-7))) = Done (VI (-7)).
Proof. repeat split; cbn; try lia. Qed.
Lemma omap_back t t' : forall l, within t t' -> Forall (has_type t) l -> Forall machine l ->
  exists us, omap (cast t') l = Done us /\ omap (cast t) us = Done l.
Proof.
  intros l W. induction l as [|v l IH]; intros T Mc; [exists []; split; reflexivity|]. inversion T; inversion Mc; subst.
  destruct (c95_back t t' v W) as [v' [A [B _]]]; auto. destruct IH as [us [C D]]; auto.
  exists (v' :: us). cbn [omap]. rewrite A, B. cbn [obind]. rewrite C, D. split; reflexivity.
Qed.
Theorem c95_round_trip : forall lm ty lim V w rho x y z, repr w lim ty V rho -> In x V -> In y V -> In z V -> y <> x -> rho x <> [] ->
  Z.of_nat (length (rho x)) <= max_len -> 2 * Z.of_nat (length (rho x)) <= lim -> Forall machine (rho x) ->
  Forall (has_type (ty x)) (rho x) -> ty z = ty x -> within (ty x) (ty y) ->
  exists w1 w2, assign lm y (EVar x) w = (Done tt, w1) /\ assign lm z (EVar y) w1 = (Done tt, w2) /\ vholds w2 z (rho x).
Proof.
  intros lm ty lim V w rho x y z R Vx Vy Vz Ne N B1 B2 Mc T Tz W.
  destruct (omap_back (ty x) (ty y) (rho x) W T Mc) as [us [E1 E2]].
  assert (L : length us = length (rho x)).
  { pose proof (omap_done _ _ _ (VB false) (VB false) E1) as [K _]. exact K. }
  destruct (agrees_assign lm ty lim V y (EVar x) w rho R) as [w1 [A1 G1]].
  { cbn [cmd_wf vars wf_expr xsize]. repeat split; auto. intros u [<- | []]. exact Vx. }
  cbn [run_cmd spec_cmd xsize] in A1, G1. rewrite value_of_var in A1, G1.
  destruct (Z.eqb_spec (Z.of_nat (length (rho x))) 0) as [K|K]; [destruct (rho x); [congruence|cbn in K; lia]|].
  rewrite E1 in A1, G1. cbn [fst snd] in A1, G1. destruct G1 as [R1 _]; [intros u; discriminate|].
  assert (Hy : setl rho y us y = us) by apply setl_same.
  destruct (agrees_assign lm ty lim V z (EVar y) w1 (setl rho y us) R1) as [w2 [A2 G2]].
  { cbn [cmd_wf vars wf_expr xsize]. rewrite Hy, L. repeat split; auto. intros u [<- | []]. exact Vy. }
  cbn [run_cmd spec_cmd xsize] in A2, G2. rewrite value_of_var, Hy, L, Tz, E2 in A2, G2.
  destruct (Z.eqb_spec (Z.of_nat (length (rho x))) 0) as [K'|_]; [contradiction|]. cbn [fst snd] in A2, G2.
  destruct G2 as [R2 _]; [intros u; discriminate|].
  exists w1, w2. split; [exact A1|]. split; [exact A2|]. pose proof (re_holds _ _ _ _ _ R2 z Vz) as Hz. rewrite setl_same in Hz. exact Hz.
Qed.
Print Assumptions c95_round_trip.

(** if and while: the branch is taken, the loop goes on, exactly when the value
    of the condition is not zero. *)
Theorem c95_condition : forall N lm c a b w v w1, machine v -> lcondition lm c w = (Done v, w1) ->
  (nonzero v -> lrun N lm (LIf c a b) w = lrun N lm a w1 /\
     lrun (S N) lm (LWhile c LSkip) w = lrun N lm (LWhile c LSkip) w1) /\
  (~ nonzero v -> lrun N lm (LIf c a b) w = lrun N lm b w1 /\ lrun (S N) lm (LWhile c a) w = (Done true, w1)).
Proof.
  intros N lm c a b w v w1 Mc E. pose proof (truth_nonzero v Mc) as T. cbn [lrun].
  rewrite (bind_done _ _ _ _ _ E). cbn [rounds_of].
  assert (E' : (v <- lcondition lm c ;; ret (truth v)) w = (Done (truth v), w1)) by (now rewrite (bind_done _ _ _ _ _ E)).
  rewrite !(bind_done _ _ _ _ _ E').
  destruct (truth v); split; intros H; try (exfalso; apply H, T; reflexivity); try (apply T in H; discriminate H); split; reflexivity.
Qed.
Print Assumptions c95_condition.

(* -------------------------------------------------------------- examples *)

Definition half : flt := S754_finite true 5629499534213120 (-51).     (* -2.5 *)
Example c95_conversion_ex : machine (VD half) /\ representable TInt (VD half) /\ cast TInt (VD half) = Done (VI (-2)) /\
  machine (VD fnan) /\ ~ representable TInt (VD fnan) /\ cast TBool (VD fnan) = Done (VB true) /\ cast TBool (VD (S754_zero true)) = Done (VB false).
Proof.
  split; [vm_compute; reflexivity|]. split.
  { destruct (c95_conversion TInt (VD half)) as [[_ E] | [R _]]; [vm_compute; reflexivity|vm_compute in E; discriminate E|exact R]. }
  split; [vm_compute; reflexivity|]. split; [vm_compute; reflexivity|]. split; [cbn; tauto|]. split; reflexivity.
Qed.
(** 2^31 does not fit. *)
Example c95_undefined_ex : machine (VD (i2f (2 ^ 31))) /\ ~ representable TInt (VD (i2f (2 ^ 31))).
Proof.
  split; [apply i2f_valid|]. destruct (c95_conversion TInt (VD (i2f (2 ^ 31)))) as [[R _] | [_ [v [E _]]]];
    [apply i2f_valid|exact R|vm_compute in E; discriminate E].
Qed.
Example c95_assign_ex : exists w' us, assign ex_lm 1 (EVar 0) ex_w = (Done tt, w') /\ repr w' 1000 (fun _ => TDouble) [0%nat; 1%nat] (setl ex_rho 1 us) /\
  Forall2 (converts TDouble) (ex_rho 0%nat) us.
Proof.
  destruct (c95_assign ex_lm (fun _ => TDouble) 1000 [0%nat; 1%nat] ex_w ex_rho 1 0 ex_repr) as [P _];
    [cbn; auto|cbn; auto|discriminate|vm_compute; congruence|vm_compute; congruence|repeat constructor|].
  destruct P as [w' [us [A [B [C _]]]]]; [repeat constructor|]. exists w', us. auto.
Qed.
Example c95_round_trip_ex : exists w1 w2, assign ex_lm 1 (EVar 0) ex_w = (Done tt, w1) /\ assign ex_lm 0 (EVar 1) w1 = (Done tt, w2) /\
  vholds w2 0 (ex_rho 0%nat).
Proof.
  apply (c95_round_trip ex_lm (fun _ => TDouble) 1000 [0%nat; 1%nat] ex_w ex_rho 0 1 0 ex_repr); cbn [In]; auto;
    [discriminate|vm_compute; congruence|vm_compute; congruence|repeat constructor|repeat constructor|exact I].
Qed.
Example c95_condition_ex : lrun 5 ex_lm (LIf (LLit (VD fnan)) (LScalar 0 d1) LSkip) ex_w = lrun 5 ex_lm (LScalar 0 d1) ex_w.
Proof.
  destruct (c95_condition 5 ex_lm (LLit (VD fnan)) (LScalar 0 d1) LSkip ex_w (VD fnan) ex_w) as [P _]; [vm_compute; reflexivity|reflexivity|].
  apply P. intros [].
Qed.
