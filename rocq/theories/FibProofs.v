(** The Fibonacci example: the loop and the exactness of its sums. *)
From Coq Require Import ZArith List String Bool Lia Reals Lra.
From Flocq Require Import Core.
From Verif Require Import Base Num FloatBridge StoreModel VecModel SubsetModel AllocModel ProgModel
  Spec SpecExpr SpecHist SpecProg SpecSub SpecAlloc SpecStmt SpecFib
  StoreProofs ProgProofs ProgProofs2 ProgThms.
Import ListNotations.
Open Scope Z_scope.
Local Notation length := List.length (only parsing).

(* ----------------------------------------------------------- the elements *)

(** Element k and k + 1. *)
Fixpoint fpair (k : nat) : flt * flt :=
  match k with O => (i2f 1, i2f 1) | S k' => let (a, b) := fpair k' in (b, fadd b a) end.
Definition fdbl (k : nat) : flt := fst (fpair k).
Definition fibs (n : nat) : list flt := map fdbl (seq 0 n).

Lemma fdbl_rec k : fdbl (S (S k)) = fadd (fdbl (S k)) (fdbl k).
Proof. unfold fdbl. cbn [fpair]. destruct (fpair k). reflexivity. Qed.
Lemma fibs_nth n k : (k < n)%nat -> nth k (fibs n) fzero = fdbl k.
Proof.
  intros L. unfold fibs. rewrite (nth_indep _ fzero (fdbl 0)) by (rewrite map_length, seq_length; lia).
  rewrite (map_nth fdbl), seq_nth by lia. reflexivity.
Qed.
Lemma fibs_length n : length (fibs n) = n.
Proof. unfold fibs. now rewrite map_length, seq_length. Qed.
Lemma fibs_list n : fib_list n (fibs n).
Proof.
  split; [apply fibs_length|]. intros k L. rewrite fibs_nth by lia. destruct k as [|[|k]]; [reflexivity|reflexivity|].
  rewrite !fibs_nth by lia. apply fdbl_rec.
Qed.
Lemma fib_list_nth n l : fib_list n l -> forall k, (k < n)%nat -> nth k l fzero = fdbl k.
Proof.
  intros [L F]. assert (G : forall k, ((k < n)%nat -> nth k l fzero = fdbl k) /\ ((S k < n)%nat -> nth (S k) l fzero = fdbl (S k))).
  { induction k as [|k [I1 I2]].
    - split; intros B; now rewrite F.
    - split; [exact I2|]. intros B. rewrite F by lia. rewrite I1, I2, fdbl_rec by lia. reflexivity. }
  intros k. apply G.
Qed.
Lemma fib_list_unique n l l' : fib_list n l -> fib_list n l' -> l = l'.
Proof.
  intros F F'. apply (nth_ext _ _ fzero fzero); [destruct F, F'; congruence|].
  intros k B. destruct F as [L F0]. rewrite (fib_list_nth n l), (fib_list_nth n l'); auto; try lia. now split.
Qed.

(** The first k elements are there, the others are still zero. *)
Definition part (n k : nat) : list val := map VD (fibs k ++ repeat fzero (n - k)).
Lemma part_length n k : (k <= n)%nat -> length (part n k) = n.
Proof. intros L. unfold part. rewrite map_length, app_length, fibs_length, repeat_length. lia. Qed.
Lemma part_nth n k j : (j < k)%nat -> nth_error (part n k) j = Some (VD (fdbl j)).
Proof.
  intros L. unfold part. rewrite map_app, nth_error_app1 by (rewrite map_length, fibs_length; lia).
  rewrite (map_nth_error VD j (fibs k) (d := fdbl j)); [reflexivity|].
  rewrite (nth_error_nth' _ fzero) by (rewrite fibs_length; lia). now rewrite fibs_nth.
Qed.
Lemma list_set_mid {A} (p : list A) a q v : list_set (p ++ a :: q) (length p) v = p ++ v :: q.
Proof. induction p; simpl; [reflexivity|now f_equal]. Qed.
Lemma fibs_snoc k : fibs (S k) = fibs k ++ [fdbl k].
Proof. unfold fibs. rewrite seq_S, map_app. reflexivity. Qed.
Lemma part_next n k : (k < n)%nat -> list_set (part n k) k (VD (fdbl k)) = part n (S k).
Proof.
  intros L. unfold part. replace (n - k)%nat with (S (n - S k)) by lia. cbn [repeat].
  rewrite !map_app. cbn [map].
  pose proof (list_set_mid (map VD (fibs k)) (VD fzero) (map VD (repeat fzero (n - S k))) (VD (fdbl k))) as M.
  rewrite map_length, fibs_length in M. rewrite M, fibs_snoc, map_app, <- app_assoc. reflexivity.
Qed.
Lemma part_all n : part n n = map VD (fibs n).
Proof. unfold part. rewrite Nat.sub_diag. simpl. now rewrite app_nil_r. Qed.

(* --------------------------------------------------------------- the loop *)

Lemma mod_pos z : 1 <= z < 2 ^ 31 -> (z - 1) mod 2 ^ 64 = z - 1.
Proof. intros B. apply Z.mod_small. assert (2 ^ 31 < 2 ^ 64) by (apply Z.pow_lt_mono_r; lia). lia. Qed.

Section Fib.
Variables (N : nat) (lm : libm) (ty : nat -> ety) (lim : Z) (V : list nat) (res s2 : nat) (same : bool) (n : nat).
Hypotheses (TY : ty res = TDouble) (L2 : 2 <= lim) (LN : Z.of_nat n < 2 ^ 30) (NS : ~ In s2 (res :: V)).

Definition step (v : val) : stmt :=
  match v with
  | VI i => TSub s2 res (XZ i) same (PBin OPlus (PSel (PVar res) (XZ (i - 1))) (PSel (PVar res) (XZ (i - 2))))
  | _ => TSkip
  end.

Lemma round H k rho : ~ In s2 H -> (2 <= k < n)%nat -> rho res = part n k ->
  exists rho', sem N lm ty lim H (res :: V) (step (VI (Z.of_nat k + 1))) rho Ended rho' /\
    rho' res = part n (S k) /\ (forall y, y <> res -> rho' y = rho y).
Proof.
  intros NH B R. set (i := Z.of_nat k + 1).
  assert (P30 : 2 ^ 30 < 2 ^ 31) by (apply Z.pow_lt_mono_r; lia).
  set (e := EBin OPlus (ESub (EVar res) [i - 2] mp_none) (ESub (EVar res) [i - 3] mp_none)).
  assert (SC : spec_cmd lm ty (CSub s2 res [i - 1] same e) rho =
      (Done tt, setl rho res (part n (S k)))).
  { unfold spec_cmd, e. cbn [xsize List.length]. cbn [negb Z.max Z.eqb Z.of_nat Pos.of_succ_nat].
    unfold value. cbn [xsize List.length].
    change (Z.to_nat (Z.max (Z.of_nat 1) (Z.of_nat 1))) with 1%nat. cbn [zseq omap].
    cbn [xval xsize List.length]. change (0 mod Z.of_nat 1) with 0. cbn [Z.to_nat nth].
    unfold pick_val. rewrite !R.
    replace (Z.to_nat (i - 2)) with (k - 1)%nat by (unfold i; lia).
    replace (Z.to_nat (i - 3)) with (k - 2)%nat by (unfold i; lia).
    rewrite !part_nth by lia. cbn [obind]. rewrite TY.
    cbn [bin_f trait_arith arith v2z obind ty_of common cast v2f scatter read own_type].
    unfold trait_arith, arith. cbn [v2z obind ty_of common cast v2f scatter].
    rewrite part_length by lia. destruct (Z.ltb_spec (i - 1) (Z.of_nat n)); [|unfold i in *; lia].
    replace (Z.to_nat (i - 1)) with k by (unfold i; lia).
    destruct k as [|[|k]]; [lia|lia|]. replace (S (S k) - 1)%nat with (S k) by lia.
    replace (S (S k) - 2)%nat with k by lia. rewrite <- fdbl_rec, part_next by lia. reflexivity. }
  exists (setl rho res (part n (S k))). split; [|split].
  - cbn [sem step]. exists (CSub s2 res [i - 1] same e). split; [|split; [|now rewrite SC]].
    + cbn [single_cmd]. exists (IZ i), [i - 1], e. split; [exact NH|]. split; [reflexivity|]. split.
      { rewrite <- (mod_pos i) by (unfold i; lia). constructor. unfold i. lia. }
      split; [|reflexivity]. cbn [means means_index].
      assert (Q : forall z, 1 <= z < 2 ^ 31 -> exists e1 i1 ps, (In res (res :: V) /\ e1 = EVar res) /\
          wf_expr rho e1 /\ i1 = IZ z /\ picks lm rho (xsize rho e1) i1 ps /\
          ESub (EVar res) [z - 1] mp_none = ESub e1 ps mp_none).
      { intros z Bz. exists (EVar res), (IZ z), [z - 1]. split; [split; [now left|reflexivity]|].
        split; [exact I|]. split; [reflexivity|]. split; [|reflexivity].
        rewrite <- (mod_pos z) by lia. constructor. lia. }
      exists (ESub (EVar res) [i - 2] mp_none), (ESub (EVar res) [i - 3] mp_none).
      assert (Q1 := Q (i - 1) ltac:(unfold i; lia)). replace (i - 1 - 1) with (i - 2) in Q1 by lia.
      assert (Q2 := Q (i - 2) ltac:(unfold i; lia)). replace (i - 2 - 1) with (i - 3) in Q2 by lia.
      split; [exact Q1|]. split; [exact Q2|reflexivity].
    + unfold e. cbn [cmd_wf vars wf_expr xsize List.length app plain]. rewrite !R, !part_length by lia.
      split; [exact NS|]. split; [now left|]. split; [intros y [<-|[<-|[]]]; now left|].
      assert (Q : forall z, 0 <= z -> True /\ Z.of_nat 1 <= Z.of_nat n /\ (forall j, In j [z] -> 0 <= j) /\
          (true = false -> forall j, In j [z] -> j < Z.of_nat n)).
      { intros z Bz. split; [exact I|]. split; [lia|]. split; [|discriminate]. intros j [<-|[]]. lia. }
      split; [split; [apply Q; unfold i; lia|split; [apply Q; unfold i; lia|lia]]|].
      split; [simpl; lia|]. split; [lia|]. intros j [<-|[]]. unfold i. lia.
  - unfold setl. now rewrite Nat.eqb_refl.
  - intros y Hy. unfold setl. destruct (Nat.eqb_spec y res); [contradiction|reflexivity].
Qed.

Lemma loop H m : ~ In s2 H -> forall k rho, (2 <= k)%nat -> (k + m = n)%nat -> rho res = part n k ->
  exists rho', each_spec (map VI (zseq (Z.of_nat k + 1) m)) (fun v => sem N lm ty lim H (res :: V) (step v)) rho Ended rho' /\
    rho' res = part n n /\ (forall y, y <> res -> rho' y = rho y).
Proof.
  intros NH. induction m as [|m IH]; intros k rho B E R; cbn [zseq map each_spec].
  - exists rho. replace n with k at 2 by lia. rewrite R. replace n with k by lia. auto.
  - destruct (round H k rho NH ltac:(lia) R) as [rho1 [S1 [R1 O1]]].
    destruct (IH (S k) rho1 ltac:(lia) ltac:(lia) R1) as [rho2 [S2 [R2 O2]]].
    exists rho2. split; [|split; [exact R2|intros y Hy; now rewrite O2, O1]].
    exists Ended, rho1. split; [exact S1|]. cbn [after]. now replace (Z.of_nat k + 1 + 1) with (Z.of_nat (S k) + 1) by lia.
Qed.
End Fib.

(* ------------------------------------------------------------ the program *)

Lemma set_one N lm ty lim H V res n k z rho : ty res = TDouble -> (k < n)%nat -> Z.of_nat n < 2 ^ 30 ->
  z = Z.of_nat k + 1 -> fdbl k = i2f 1 -> rho res = part n k ->
  sem N lm ty lim H (res :: V) (TSubScalar res (XZ z) (VI 1)) rho Ended (setl rho res (part n (S k))).
Proof.
  intros TY B LN E F R. assert (P30 : 2 ^ 30 < 2 ^ 31) by (apply Z.pow_lt_mono_r; lia).
  assert (SC : spec_cmd lm ty (CSubScalar res [z - 1] (VI 1)) rho = (Done tt, setl rho res (part n (S k)))).
  { cbn [spec_cmd List.length Z.of_nat Pos.of_succ_nat Z.eqb]. rewrite TY. cbn [cast v2f repeat scatter]. rewrite !R, part_length by lia.
    destruct (Z.ltb_spec (z - 1) (Z.of_nat n)); [|lia]. replace (Z.to_nat (z - 1)) with k by lia.
    rewrite <- F, part_next by lia. reflexivity. }
  cbn [sem]. exists (CSubScalar res [z - 1] (VI 1)). split; [|split; [|now rewrite SC]].
  - exists (IZ z), [z - 1]. split; [reflexivity|]. split; [|reflexivity].
    rewrite <- (mod_pos z) by lia. constructor. lia.
  - cbn [cmd_wf List.length]. rewrite R, part_length by lia. split; [now left|]. split; [lia|]. intros j [<-|[]]. lia.
Qed.

Lemma setl_here rho x l : setl rho x l x = l.
Proof. unfold setl. now rewrite Nat.eqb_refl. Qed.
Lemma setl_other rho x l y : y <> x -> setl rho x l y = rho y.
Proof. intros D. unfold setl. destruct (Nat.eqb_spec y x); [contradiction|reflexivity]. Qed.

Lemma zseq_map b m : forall a, map (fun k => b + Z.of_nat k) (seq a m) = zseq (b + Z.of_nat a) m.
Proof.
  induction m as [|m IH]; intros a; cbn [seq map zseq]; [reflexivity|]. rewrite IH. do 2 f_equal. lia.
Qed.
Lemma count_up n : (3 <= n)%nat -> count_from 3 (Z.of_nat n) = zseq 3 (n - 2).
Proof.
  intros L. unfold count_from. replace (Z.to_nat (Z.abs (3 - Z.of_nat n) + 1)) with (n - 2)%nat by lia.
  destruct (Z.leb_spec 3 (Z.of_nat n)); [|lia]. apply (zseq_map 3 (n - 2) 0).
Qed.

Lemma fib_sem N lm ty lim H V rho res s col s2 same n :
  ty res = TDouble -> (3 <= n)%nat -> Z.of_nat n < 2 ^ 30 -> 2 * Z.of_nat n <= lim ->
  ~ In res (H ++ V) -> ~ In s (H ++ V) -> res <> s -> ~ In col (H ++ res :: V) -> ~ In s2 (col :: H) -> ~ In s2 (res :: V) ->
  exists rho1, rho1 res = map VD (fibs n) /\ (forall y, y <> res -> rho1 y = rho y) /\
    forall rest r rho', sem N lm ty lim H (res :: V) rest rho1 r rho' ->
      sem N lm ty lim H V (fibonacci res s col s2 same (Z.of_nat n) rest) rho r rho'.
Proof.
  intros TY L3 LN LM Nr Ns Ne Nc Nh Nv.
  set (rho0 := setl rho res (part n 0)).
  set (rhoa := setl rho0 res (part n 1)). set (rhob := setl rhoa res (part n 2)).
  destruct (loop N lm ty lim V res s2 same n TY ltac:(lia) LN Nv (col :: H) (n - 2) Nh 2 rhob) as [rho1 [S1 [R1 O1]]];
    [lia|lia|apply setl_here|].
  exists rho1. split; [now rewrite R1, part_all|]. split.
  { intros y Hy. rewrite O1 by exact Hy. unfold rhob, rhoa, rho0. now rewrite !setl_other. }
  intros rest r rho' X. unfold fibonacci. cbn [sem].
  exists (part n 0). split; [exact Nr|]. split; [exact Ns|]. split; [exact Ne|]. split; [exact TY|]. split.
  { split; [rewrite part_length by lia; exact LM|]. exists (VI (Z.of_nat n)), (Z.of_nat n).
    split; [reflexivity|]. split; [reflexivity|]. split; [lia|]. split; [reflexivity|].
    unfold part, fibs. rewrite Nat2Z.id, Nat.sub_0_r. cbn [seq map app]. clear. induction n as [|n IH]; cbn [repeat map]; [reflexivity|now rewrite IH]. }
  fold rho0.
  exists Ended, rhoa. split; [apply (set_one N lm ty lim H V res n 0); auto; [lia|apply setl_here]|]. cbn [after].
  exists Ended, rhob. split; [apply (set_one N lm ty lim H V res n 1); auto; [lia|apply setl_here]|]. cbn [after].
  exists Ended, rho1. split; [|exact X].
  exists TInt, (map VI (zseq 3 (n - 2))). split; [exact Nc|]. split.
  - split.
    { rewrite map_length, <- count_up by exact L3. unfold count_from. rewrite map_length, seq_length. lia. }
    exists [VI 3], [VI (Z.of_nat n)], 3, (Z.of_nat n). split; [reflexivity|]. split; [reflexivity|].
    split; [discriminate|]. split; [discriminate|]. split; [intros u [<-|[]]; reflexivity|].
    split; [intros u [<-|[]]; reflexivity|]. split; [reflexivity|]. split; [reflexivity|].
    split; [split; reflexivity|]. split; [lia|]. split; [reflexivity|]. now rewrite count_up.
  - exact S1.
Qed.

(* -------------------------------------------------------------- exactness *)

Lemma fib_step k : fib (S (S k)) = fib (S k) + fib k.
Proof. reflexivity. Qed.
Lemma fib_pos k : 1 <= fib k /\ fib k <= fib (S k).
Proof. induction k as [|k [A B]]; [simpl; lia|]. rewrite fib_step. lia. Qed.

(** Fibonacci numbers in linear time, to compute with. *)
Fixpoint zpair (k : nat) : Z * Z :=
  match k with O => (1, 1) | S k' => let (a, b) := zpair k' in (b, b + a) end.
Lemma fib_zpair k : zpair k = (fib k, fib (S k)).
Proof. induction k as [|k IH]; [reflexivity|]. cbn [zpair]. rewrite IH. now rewrite fib_step. Qed.
Lemma fib_fast k : fib k = fst (zpair k).
Proof. now rewrite fib_zpair. Qed.
Lemma fib_mono j k : (j <= k)%nat -> fib j <= fib k.
Proof. induction 1 as [|k _ IH]; [lia|]. pose proof (proj2 (fib_pos k)). lia. Qed.

Lemma fib_exact k : fib k <= 2 ^ 53 -> fR (fdbl k) = IZR (fib k) /\ finite (fdbl k) /\ valid (fdbl k).
Proof.
  assert (One : fR (i2f 1) = IZR 1 /\ finite (i2f 1) /\ valid (i2f 1)).
  { destruct (i2f_exact 1) as [A B]; [vm_compute; discriminate|]. split; [exact A|]. split; [exact B|apply i2f_valid]. }
  assert (G : forall k, (fib k <= 2 ^ 53 -> fR (fdbl k) = IZR (fib k) /\ finite (fdbl k) /\ valid (fdbl k)) /\
    (fib (S k) <= 2 ^ 53 -> fR (fdbl (S k)) = IZR (fib (S k)) /\ finite (fdbl (S k)) /\ valid (fdbl (S k)))).
  { clear k. induction k as [|k [I1 I2]]; [split; intros _; exact One|]. split; [exact I2|]. intros B.
    destruct (fib_pos k) as [P Q]. pose proof (fib_pos (S k)) as [P' Q'].
    rewrite fdbl_rec. rewrite fib_step in *. destruct (I1 ltac:(lia)) as [A1 [A2 A3]].
    destruct (I2 ltac:(lia)) as [B1 [B2 B3]].
    destruct (fadd_correct (fdbl (S k)) (fdbl k) B3 A3 B2 A2) as [R [F Vd]].
    - rewrite A1, B1, <- plus_IZR, <- abs_IZR. apply Rle_trans with (IZR (2 ^ 1000)).
      + apply IZR_le. eapply Z.le_trans; [|apply (Z.pow_le_mono_r 2 53 1000); lia]. lia.
      + rewrite (IZR_Zpower radix2) by lia. lra.
    - split; [|auto]. rewrite R, A1, B1, <- plus_IZR. apply round_generic; auto with typeclass_instances.
      apply generic_int. lia. }
  apply (proj1 (G k)).
Qed.
