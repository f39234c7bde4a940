(** Matrix programs: transposition and multiplication. *)
From Coq Require Import ZArith List String Bool Lia Reals Lra.
From Flocq Require Import Core.
From Verif Require Import Base Num FloatBridge StoreModel VecModel SubsetModel AllocModel ProgModel LangModel
  Spec SpecExpr SpecHist SpecProg SpecSub SpecAlloc SpecCons SpecStmt SpecMat SpecMul
  StoreProofs VecEval ProgProofs ProgProofs2 ProgThms FibProofs MatProofs MatThms.
Import ListNotations.
Open Scope Z_scope.
Local Notation length := List.length (only parsing).

(* ---------------------------------------------------- matrices as functions *)

Definition grid (n m : nat) (f : nat -> nat -> flt) : list flt := map (fun q => f (q mod n) (q / n))%nat (seq 0 (n * m)).

Lemma grid_length n m f : length (grid n m f) = (n * m)%nat.
Proof. unfold grid. now rewrite map_length, seq_length. Qed.
Lemma cell_lt n m i j : (i < n)%nat -> (j < m)%nat -> (j * n + i < n * m)%nat.
Proof. intros. nia. Qed.
Lemma cell_div n i j : (i < n)%nat -> ((j * n + i) mod n = i /\ (j * n + i) / n = j)%nat.
Proof.
  intros L. rewrite Nat.add_comm. split.
  - rewrite Nat.mod_add by lia. now apply Nat.mod_small.
  - rewrite Nat.div_add by lia. now rewrite Nat.div_small.
Qed.
Lemma grid_nth n m f q : (q < n * m)%nat -> nth q (grid n m f) fzero = f (q mod n)%nat (q / n)%nat.
Proof.
  intros L. unfold grid. rewrite (nth_indep _ fzero (f (0 mod n)%nat (0 / n)%nat)) by (rewrite map_length, seq_length; lia).
  rewrite (map_nth (fun q => f (q mod n)%nat (q / n)%nat)), seq_nth by lia. reflexivity.
Qed.
Lemma grid_entry n m f i j : (i < n)%nat -> (j < m)%nat -> entry (grid n m f) n i j = f i j.
Proof.
  intros Li Lj. unfold entry. rewrite grid_nth by (now apply cell_lt). now destruct (cell_div n i j Li) as [-> ->].
Qed.
Lemma grid_ext n m f g : (forall i j, (i < n)%nat -> (j < m)%nat -> f i j = g i j) -> grid n m f = grid n m g.
Proof.
  intros E. unfold grid. apply map_ext_in. intros q Hq. apply in_seq in Hq. destruct (Nat.eq_dec n 0) as [->|Nz]; [simpl in Hq; lia|].
  apply E; [now apply Nat.mod_upper_bound|]. apply Nat.div_lt_upper_bound; lia.
Qed.
Lemma nth_list_set {A} (l : list A) k v q d : (k < length l)%nat -> nth q (list_set l k v) d = if Nat.eqb q k then v else nth q l d.
Proof.
  revert k q. induction l as [|a l IH]; intros k q L; [simpl in L; lia|]. destruct k as [|k], q as [|q]; cbn [list_set nth Nat.eqb]; auto.
  apply IH. simpl in L. lia.
Qed.
Definition upd2 (f : nat -> nat -> flt) (i j : nat) (v : flt) : nat -> nat -> flt :=
  fun a b => if Nat.eqb a i && Nat.eqb b j then v else f a b.
Lemma list_set_map {A B} (g : A -> B) l k v : list_set (map g l) k (g v) = map g (list_set l k v).
Proof. revert k. induction l as [|a l IH]; intros [|k]; cbn; auto. now rewrite IH. Qed.
Lemma list_set_len {A} (l : list A) k v : length (list_set l k v) = length l.
Proof. revert k. induction l as [|a l IH]; intros [|k]; cbn; auto. Qed.
Lemma grid_set n m f i j v : (i < n)%nat -> (j < m)%nat ->
  list_set (map VD (grid n m f)) (j * n + i) (VD v) = map VD (grid n m (upd2 f i j v)).
Proof.
  intros Li Lj. rewrite list_set_map. f_equal. apply (nth_ext _ _ fzero fzero).
  - now rewrite list_set_len, !grid_length.
  - intros q Hq. rewrite list_set_len, grid_length in Hq.
    rewrite nth_list_set by (rewrite grid_length; now apply cell_lt). rewrite !grid_nth by lia. unfold upd2.
    destruct (Nat.eqb_spec q (j * n + i)) as [->|Nq].
    + destruct (cell_div n i j Li) as [-> ->]. now rewrite !Nat.eqb_refl.
    + destruct (Nat.eqb_spec (q mod n) i) as [E1|]; [|reflexivity]. destruct (Nat.eqb_spec (q / n) j) as [E2|]; [|reflexivity].
      exfalso. apply Nq. rewrite (Nat.div_mod q n) by lia. rewrite E1, E2. lia.
Qed.
Lemma grid_zero n m : repeat (VD fzero) (n * m) = map VD (grid n m (fun _ _ => fzero)).
Proof.
  unfold grid. rewrite map_map. generalize 0%nat as a. induction (n * m)%nat as [|k IH]; intros a; cbn; [reflexivity|]. now rewrite <- IH.
Qed.

(* ------------------------------------------------------------------- loops *)

Section Loops.
Variables (N : nat) (lm : libm) (ty : nat -> ety) (lim : Z).

Lemma each_inv (B : Z -> mstate -> res -> mstate -> Prop) (Inv : nat -> mstate -> Prop) n : forall m k s, (k + m = n)%nat -> Inv k s ->
  (forall q s, (q < n)%nat -> Inv q s -> exists s', B (Z.of_nat q + 1) s Ended s' /\ Inv (S q) s') ->
  exists s', each_spec (map VI (zseq (Z.of_nat k + 1) m)) (fun v => match v with VI i => B i | _ => fun s r s' => r = Ended /\ s' = s end) s Ended s' /\ Inv n s'.
Proof.
  induction m as [|m IH]; intros k s E I F; cbn [zseq map each_spec].
  - exists s. replace n with k by lia. auto.
  - destruct (F k s ltac:(lia) I) as [s1 [X1 I1]]. destruct (IH (S k) s1 ltac:(lia) I1 F) as [s2 [X2 I2]].
    exists s2. split; [|exact I2]. exists Ended, s1. split; [exact X1|]. cbn [after]. now replace (Z.of_nat k + 1 + 1) with (Z.of_nat (S k) + 1) by lia.
Qed.

Lemma count_one n : (1 <= n)%nat -> count_from 1 (Z.of_nat n) = zseq 1 n.
Proof.
  intros L. unfold count_from. replace (Z.to_nat (Z.abs (1 - Z.of_nat n) + 1)) with n by lia.
  destruct (Z.leb_spec 1 (Z.of_nat n)); [|lia]. apply (zseq_map 1 n 0).
Qed.

Lemma each_ext vs (B B' : val -> mstate -> res -> mstate -> Prop) : (forall v s r s', B v s r s' -> B' v s r s') ->
  forall s r s', each_spec vs B s r s' -> each_spec vs B' s r s'.
Proof.
  intros F. induction vs as [|v vs IH]; intros s r s' X; cbn [each_spec] in *; [exact X|].
  destruct X as [r1 [s1 [X1 X2]]]. exists r1, s1. split; [now apply F|]. destruct r1; cbn [after] in *; auto.
Qed.

Lemma for_range_inv H V col n body (Inv : nat -> mstate -> Prop) s : (1 <= n)%nat -> Z.of_nat n < 2 ^ 30 -> 2 * Z.of_nat n <= lim ->
  ~ In col (H ++ V) -> Inv 0%nat s ->
  (forall k s, (k < n)%nat -> Inv k s -> exists s', lsem N lm ty lim (col :: H) V (body (Z.of_nat k + 1)) s Ended s' /\ Inv (S k) s') ->
  exists s', lsem N lm ty lim H V (for_range col (Z.of_nat n) body) s Ended s' /\ Inv n s'.
Proof.
  intros L1 LN LM Nc I F.
  destruct (each_inv (fun i => lsem N lm ty lim (col :: H) V (body i)) Inv n n 0 s eq_refl I F) as [s' [X I']].
  exists s'. split; [|exact I']. unfold for_range. cbn [lsem]. exists TInt, (map VI (count_from 1 (Z.of_nat n))), None.
  split; [exact Nc|]. split.
  - split; [rewrite map_length, count_one by exact L1; rewrite zseq_length; exact LM|].
    exists [VI 1], [VI (Z.of_nat n)], 1, (Z.of_nat n). split; [reflexivity|]. split; [reflexivity|].
    split; [discriminate|]. split; [discriminate|]. split; [intros u [<-|[]]; reflexivity|].
    split; [intros u [<-|[]]; reflexivity|]. split; [reflexivity|]. split; [reflexivity|].
    split; [split; reflexivity|]. split; [lia|]. split; [reflexivity|]. split; reflexivity.
  - rewrite count_one by exact L1. revert X. apply each_ext. intros [b|z|f] t r t' X; [exact X|exact X|exact X].
Qed.

(** Writing one element of a matrix of doubles. *)
Lemma write_cell H V (s : mstate) y n m f i j v : In y V -> ty y = TDouble -> fst s y = map VD (grid n m f) ->
  snd s y = Some (Z.of_nat n, Z.of_nat m) -> (i < n)%nat -> (j < m)%nat -> Z.of_nat n < 2 ^ 30 -> Z.of_nat m < 2 ^ 30 ->
  exists s', lsem N lm ty lim H V (LAt2Set y (PZ (Z.of_nat i + 1)) (PZ (Z.of_nat j + 1)) (VD v)) s Ended s' /\
    fst s' y = map VD (grid n m (upd2 f i j v)) /\ (forall u, u <> y -> fst s' u = fst s u) /\ (forall u, snd s' u = snd s u).
Proof.
  destruct s as [rho sh]; cbn [fst snd]. intros Vy Ty El Sh Li Lj Bn Bm. assert (P30 : 2 ^ 30 < 2 ^ 31) by (apply Z.pow_lt_mono_r; lia).
  pose proof (cell_lt n m i j Li Lj) as Lq.
  assert (Len : length (rho y) = (n * m)%nat) by (rewrite El, map_length; apply grid_length).
  set (q := (j * n + i)%nat) in *.
  assert (SC : spec_cmd lm ty (CElem y (Z.of_nat q) (VD v)) rho = (Done tt, setl rho y (map VD (grid n m (upd2 f i j v))))).
  { cbn [spec_cmd]. rewrite Ty. cbn [cast v2f scatter]. rewrite Len. destruct (Z.ltb_spec (Z.of_nat q) (Z.of_nat (n * m))); [|lia].
    rewrite Nat2Z.id, El. unfold q. now rewrite grid_set by auto. }
  exists (setl rho y (map VD (grid n m (upd2 f i j v))), sh). split; [|split; [|split]].
  - cbn [lsem fst snd]. split; [exact Vy|]. split; [intros E; rewrite E in Len; cbn in Len; lia|]. rewrite Sh.
    exists (Z.of_nat i + 1), (Z.of_nat j + 1), (Z.of_nat q), true. split; [reflexivity|]. split; [reflexivity|]. split.
    + split; [lia|]. split; [lia|]. split; [lia|]. split; [unfold q; lia|]. symmetry. apply Z.ltb_lt. rewrite Len. lia.
    + unfold does. cbn [fst snd]. rewrite SC. split; [split; [exact Vy|lia]|]. split; reflexivity.
  - cbn. unfold setl. now rewrite Nat.eqb_refl.
  - intros u Hu. cbn [fst]. unfold setl. destruct (Nat.eqb_spec u y); [contradiction|reflexivity].
  - reflexivity.
Qed.

(** Reading one. *)
Lemma read_cell V (s : mstate) x l n m i j : In x V -> fst s x = map VD l -> length l = (n * m)%nat ->
  snd s x = Some (Z.of_nat n, Z.of_nat m) -> (i < n)%nat -> (j < m)%nat -> Z.of_nat n < 2 ^ 30 -> Z.of_nat m < 2 ^ 30 ->
  lmeans lm V (fst s) (snd s) (LAt2 x (PZ (Z.of_nat i + 1)) (PZ (Z.of_nat j + 1))) (Done (ESca (VD (entry l n i j)))).
Proof.
  intros Vx El Len Sh Li Lj Bn Bm. assert (P30 : 2 ^ 30 < 2 ^ 31) by (apply Z.pow_lt_mono_r; lia).
  pose proof (cell_lt n m i j Li Lj) as Lq. cbn [lmeans]. split; [exact Vx|]. rewrite El, Sh.
  split; [destruct l; [cbn in Len; lia|discriminate]|].
  exists (Z.of_nat i + 1), (Z.of_nat j + 1), (Z.of_nat (j * n + i)), true. split; [reflexivity|]. split; [reflexivity|]. split.
  - split; [lia|]. split; [lia|]. split; [lia|]. split; [lia|]. symmetry. apply Z.ltb_lt. rewrite map_length, Len. lia.
  - rewrite Nat2Z.id. rewrite (nth_indep _ (VB false) (VD fzero)) by (rewrite map_length; lia).
    now rewrite (map_nth VD).
Qed.

Lemma bin_means V rho sh op l r a b : lmeans lm V rho sh l (Done a) -> lmeans lm V rho sh r (Done b) ->
  lmeans lm V rho sh (LBin op l r) (Done (EBin op a b)).
Proof. intros A B. exists (Done a), (Done b). auto. Qed.

(* --------------------------------------------------------- transposition *)

Definition same_but (y : nat) (s s' : mstate) : Prop :=
  (forall u, u <> y -> fst s' u = fst s u) /\ (forall u, snd s' u = snd s u).
Lemma same_but_trans y s1 s2 s3 : same_but y s1 s2 -> same_but y s2 s3 -> same_but y s1 s3.
Proof. intros [A B] [C D]. split; intros; [rewrite C, A|rewrite D, B]; auto. Qed.

Lemma transpose_loops H V (s : mstate) x y c1 c2 lx n m : In x V -> In y V -> x <> y -> ty y = TDouble ->
  (1 <= n)%nat -> (1 <= m)%nat -> Z.of_nat n < 2 ^ 30 -> Z.of_nat m < 2 ^ 30 -> 2 * Z.of_nat n <= lim -> 2 * Z.of_nat m <= lim ->
  fst s x = map VD lx -> length lx = (n * m)%nat -> snd s x = Some (Z.of_nat n, Z.of_nat m) ->
  fst s y = map VD (grid m n (fun _ _ => fzero)) -> snd s y = Some (Z.of_nat m, Z.of_nat n) ->
  ~ In c1 (H ++ V) -> ~ In c2 (c1 :: H ++ V) ->
  exists s', lsem N lm ty lim H V (for_range c1 (Z.of_nat n) (fun i => for_range c2 (Z.of_nat m) (fun j =>
             LScal (LAt2 x (PZ i) (PZ j)) (fun v => LAt2Set y (PZ j) (PZ i) v)))) s Ended s' /\
    fst s' y = map VD (grid m n (fun j i => entry lx n i j)) /\ same_but y s s'.
Proof.
  intros Vx Vy Nxy Ty Ln Lm Bn Bm Fn Fm Ex Lx Sx Ey Sy N1 N2.
  pose (Inv := fun (a b : nat) (s' : mstate) => same_but y s s' /\
    fst s' y = map VD (grid m n (fun j i => if (i <? a)%nat || ((i =? a)%nat && (j <? b)%nat) then entry lx n i j else fzero))).
  destruct (for_range_inv H V c1 n (fun i => for_range c2 (Z.of_nat m) (fun j =>
             LScal (LAt2 x (PZ i) (PZ j)) (fun v => LAt2Set y (PZ j) (PZ i) v))) (fun a => Inv a 0%nat) s Ln Bn Fn N1) as [s' [X [SB E]]].
  - split; [split; auto|]. rewrite Ey. f_equal. apply grid_ext. intros i j Li Lj. cbn. now destruct (j =? 0)%nat.
  - intros a s1 La I1.
    destruct (for_range_inv (c1 :: H) V c2 m (fun j => LScal (LAt2 x (PZ (Z.of_nat a + 1)) (PZ j)) (fun v => LAt2Set y (PZ j) (PZ (Z.of_nat a + 1)) v))
                (Inv a) s1 Lm Bm Fm) as [s2 [X2 I2]]; [exact N2|exact I1| |].
    + intros b s2 Lb [SB2 E2]. pose proof (proj1 SB2) as O2. pose proof (proj2 SB2) as S2.
      destruct (write_cell (c2 :: c1 :: H) V s2 y m n _ b a (entry lx n a b) Vy Ty E2) as [s3 [X3 [E3 SB3]]]; auto; [now rewrite S2|].
      exists s3. split.
      * cbn [lsem]. exists (Done (VD (entry lx n a b))). split; [|exact X3].
        exists (Done (ESca (VD (entry lx n a b)))). split; [|split; [intros e' [= <-]; split; [exact I|cbn; lia]|reflexivity]].
        apply (read_cell V s2 x lx n m a b); auto; [now rewrite O2|now rewrite S2].
      * split; [now apply (same_but_trans y s s2 s3)|]. rewrite E3. f_equal. apply grid_ext. intros j i Lj Li. unfold upd2.
        destruct (Nat.eqb_spec j b) as [->|Nj]; cbn [andb].
        -- destruct (Nat.eqb_spec i a) as [->|Ni]; cbn [andb].
           ++ rewrite Nat.ltb_irrefl. cbn [orb]. now replace (b <? S b)%nat with true by (symmetry; apply Nat.ltb_lt; lia).
           ++ reflexivity.
        -- replace (j <? S b)%nat with (j <? b)%nat; [reflexivity|]. apply eq_true_iff_eq. rewrite !Nat.ltb_lt. lia.
    + exists s2. split; [exact X2|]. destruct I2 as [SB2 E2]. split; [exact SB2|]. rewrite E2. f_equal. apply grid_ext.
      intros j i Lj Li. replace (j <? m)%nat with true by (symmetry; now apply Nat.ltb_lt). rewrite andb_true_r.
      replace (j <? 0)%nat with false by (symmetry; apply Nat.ltb_ge; lia). rewrite andb_false_r, orb_false_r.
      replace (i <? S a)%nat with ((i <? a)%nat || (i =? a)%nat); [reflexivity|].
      apply eq_true_iff_eq. rewrite orb_true_iff, Nat.eqb_eq, !Nat.ltb_lt. lia.
  - exists s'. split; [exact X|]. split; [|exact SB]. rewrite E. f_equal. apply grid_ext. intros j i Lj Li.
    now replace (i <? n)%nat with true by (symmetry; now apply Nat.ltb_lt).
Qed.

(** A fresh matrix of zeros. *)
Lemma zero_matrix V (s : mstate) n m : (1 <= n)%nat -> (1 <= m)%nat -> 2 * Z.of_nat (n * m) <= lim ->
  lcreates lm V lim (fst s) (snd s) (LMMatrix (LS (VD fzero)) (LS (VI (Z.of_nat n))) (LS (VI (Z.of_nat m)))) TDouble
    (map VD (grid n m (fun _ _ => fzero))) (Some (Z.of_nat n, Z.of_nat m)).
Proof.
  intros Ln Lm Fm. split; [rewrite map_length, grid_length; exact Fm|].
  exists (Z.of_nat n), (Z.of_nat m).
  assert (C : forall k, (1 <= k)%nat -> counts lm V (fst s) (snd s) (LS (VI (Z.of_nat k))) (Z.of_nat k)).
  { intros k L. exists [VI (Z.of_nat k)]. split; [reflexivity|]. split; [discriminate|]. split; [intros u [<-|[]]; reflexivity|]. split; [reflexivity|lia]. }
  split; [now apply C|]. split; [now apply C|]. split; [reflexivity|]. split; [reflexivity|].
  split; [rewrite map_length, grid_length; lia|]. rewrite <- grid_zero. f_equal. lia.
Qed.

Lemma transpose_sem H V (s : mstate) x y t c1 c2 lx n m : In x V -> ty y = TDouble ->
  (1 <= n)%nat -> (1 <= m)%nat -> Z.of_nat n < 2 ^ 30 -> Z.of_nat m < 2 ^ 30 -> 2 * Z.of_nat (n * m) <= lim ->
  fst s x = map VD lx -> length lx = (n * m)%nat -> snd s x = Some (Z.of_nat n, Z.of_nat m) ->
  ~ In y (H ++ V) -> ~ In t (H ++ V) -> y <> t -> ~ In c1 (H ++ y :: V) -> ~ In c2 (c1 :: H ++ y :: V) ->
  exists s1 : mstate, fst s1 y = map VD (grid m n (fun j i => entry lx n i j)) /\ snd s1 y = Some (Z.of_nat m, Z.of_nat n) /\
    (forall u, u <> y -> fst s1 u = fst s u /\ snd s1 u = snd s u) /\
    forall rest r s', lsem N lm ty lim H (y :: V) rest s1 r s' ->
      lsem N lm ty lim H V (transpose y t c1 c2 x (Z.of_nat n) (Z.of_nat m) rest) s r s'.
Proof.
  intros Vx Ty Ln Lm Bn Bm Fl Ex Lx Sx Ny Nt Ne N1 N2.
  assert (Nxy : x <> y) by (intros ->; apply Ny, in_or_app; auto).
  set (s0 := (setl (fst s) y (map VD (grid m n (fun _ _ => fzero))), setd (snd s) y (Some (Z.of_nat m, Z.of_nat n)))).
  destruct (transpose_loops H (y :: V) s0 x y c1 c2 lx n m) as [s1 [X [E [O S1]]]]; auto; try (now right); try (now left); try nia.
  - unfold s0. cbn [fst]. now rewrite setl_other by congruence.
  - unfold s0. cbn [snd]. now rewrite setd_other by congruence.
  - unfold s0. cbn [fst]. now rewrite setl_same.
  - unfold s0. cbn [snd]. now rewrite setd_same.
  - exists s1. split; [exact E|]. split; [rewrite S1; unfold s0; cbn [snd]; now rewrite setd_same|]. split.
    + intros u Hu. rewrite O, S1 by exact Hu. unfold s0. cbn [fst snd]. now rewrite setl_other, setd_other by auto.
    + intros rest r s' Xr. unfold transpose. cbn [lsem]. eexists _, _. split; [exact Ny|]. split; [exact Nt|]. split; [exact Ne|].
      split; [exact Ty|]. split; [apply zero_matrix; auto; nia|]. exists Ended, s1. split; [exact X|exact Xr].
Qed.

(* --------------------------------------------------------- multiplication *)

Lemma matmul_loops H V (s : mstate) x y z c1 c2 c3 lx ly n p m : In x V -> In y V -> In z V -> x <> z -> y <> z -> ty z = TDouble ->
  (1 <= n)%nat -> (1 <= p)%nat -> (1 <= m)%nat -> Z.of_nat n < 2 ^ 30 -> Z.of_nat p < 2 ^ 30 -> Z.of_nat m < 2 ^ 30 ->
  2 * Z.of_nat n <= lim -> 2 * Z.of_nat p <= lim -> 2 * Z.of_nat m <= lim ->
  fst s x = map VD lx -> length lx = (n * p)%nat -> snd s x = Some (Z.of_nat n, Z.of_nat p) ->
  fst s y = map VD ly -> length ly = (p * m)%nat -> snd s y = Some (Z.of_nat p, Z.of_nat m) ->
  fst s z = map VD (grid n m (fun _ _ => fzero)) -> snd s z = Some (Z.of_nat n, Z.of_nat m) ->
  ~ In c1 (H ++ V) -> ~ In c2 (c1 :: H ++ V) -> ~ In c3 (c2 :: c1 :: H ++ V) ->
  exists s', lsem N lm ty lim H V (for_range c1 (Z.of_nat n) (fun i => for_range c2 (Z.of_nat m) (fun j => for_range c3 (Z.of_nat p) (fun k =>
             LScal (LBin OPlus (LAt2 z (PZ i) (PZ j)) (LBin OTimes (LAt2 x (PZ i) (PZ k)) (LAt2 y (PZ k) (PZ j))))
               (fun v => LAt2Set z (PZ i) (PZ j) v))))) s Ended s' /\
    fst s' z = map VD (grid n m (fun i j => dot lx ly n p i j p)) /\ same_but z s s'.
Proof.
  intros Vx Vy Vz Nxz Nyz Tz Ln Lp Lm Bn Bp Bm Fn Fp Fm Ex Lx Sx Ey Ly Sy Ez Sz N1 N2 N3.
  pose (Inv := fun (a b c : nat) (s' : mstate) => same_but z s s' /\
    fst s' z = map VD (grid n m (fun i j => if (i <? a)%nat || ((i =? a)%nat && (j <? b)%nat) then dot lx ly n p i j p
                                           else if (i =? a)%nat && (j =? b)%nat then dot lx ly n p i j c else fzero))).
  match goal with |- exists s', lsem _ _ _ _ _ _ (for_range c1 _ ?body) _ _ _ /\ _ =>
    destruct (for_range_inv H V c1 n body (fun a => Inv a 0%nat 0%nat) s Ln Bn Fn N1) as [s' [X [SB E]]] end.
  - split; [split; auto|]. rewrite Ez. f_equal. apply grid_ext. intros i j Li Lj. cbn. now destruct (i =? 0)%nat, (j =? 0)%nat.
  - intros a s1 La I1.
    match goal with |- exists s', lsem _ _ _ _ _ _ (for_range c2 _ ?body) _ _ _ /\ _ =>
      destruct (for_range_inv (c1 :: H) V c2 m body (fun b => Inv a b 0%nat) s1 Lm Bm Fm) as [s2 [X2 I2]]; [exact N2|exact I1| |] end.
    + intros b s2 Lb I2.
      match goal with |- exists s', lsem _ _ _ _ _ _ (for_range c3 _ ?body) _ _ _ /\ _ =>
        destruct (for_range_inv (c2 :: c1 :: H) V c3 p body (Inv a b) s2 Lp Bp Fp) as [s3 [X3 I3]]; [exact N3|exact I2| |] end.
      * intros c s3 Lc [SB3 E3]. pose proof (proj1 SB3) as O3. pose proof (proj2 SB3) as S3.
        set (v := fadd (dot lx ly n p a b c) (fmul (entry lx n a c) (entry ly p c b))).
        destruct (write_cell (c3 :: c2 :: c1 :: H) V s3 z n m _ a b v Vz Tz E3) as [s4 [X4 [E4 SB4]]]; auto; [now rewrite S3|].
        exists s4. split.
        -- cbn [lsem]. exists (Done (VD v)). split; [|exact X4].
           exists (Done (EBin OPlus (ESca (VD (dot lx ly n p a b c))) (EBin OTimes (ESca (VD (entry lx n a c))) (ESca (VD (entry ly p c b)))))).
           split; [|split].
           ++ apply bin_means; [|apply bin_means].
              ** pose proof (read_cell V s3 z _ n m a b Vz E3 (grid_length _ _ _)) as Q. rewrite grid_entry in Q by auto.
                 rewrite Nat.ltb_irrefl, !Nat.eqb_refl, Nat.ltb_irrefl in Q. apply Q; auto. now rewrite S3.
              ** apply (read_cell V s3 x lx n p a c); auto; [now rewrite O3|now rewrite S3].
              ** apply (read_cell V s3 y ly p m c b); auto; [now rewrite O3|now rewrite S3].
           ++ intros e' [= <-]. cbn [wf_expr xsize]. cbn. repeat split; lia.
           ++ reflexivity.
        -- split; [now apply (same_but_trans z s s3 s4)|]. rewrite E4. f_equal. apply grid_ext. intros i j Li Lj. unfold upd2.
           destruct (Nat.eqb_spec i a) as [->|Ni]; cbn [andb]; [|reflexivity].
           destruct (Nat.eqb_spec j b) as [->|Nj]; cbn [andb]; [|reflexivity].
           rewrite !Nat.ltb_irrefl. reflexivity.
      * exists s3. split; [exact X3|]. destruct I3 as [SB3 E3]. split; [exact SB3|]. rewrite E3. f_equal. apply grid_ext.
        intros i j Li Lj. destruct (Nat.ltb_spec i a); cbn [orb]; [reflexivity|].
        destruct (Nat.eqb_spec i a) as [->|Ni]; cbn [andb]; [|reflexivity].
        destruct (Nat.ltb_spec j b), (Nat.ltb_spec j (S b)), (Nat.eqb_spec j b), (Nat.eqb_spec j (S b)); cbn; try lia; reflexivity.
    + exists s2. split; [exact X2|]. destruct I2 as [SB2 E2]. split; [exact SB2|]. rewrite E2. f_equal. apply grid_ext.
      intros i j Li Lj. destruct (Nat.ltb_spec j m); [|lia]. destruct (Nat.eqb_spec j m); [lia|]. destruct (Nat.ltb_spec j 0); [lia|].
      destruct (Nat.ltb_spec i a), (Nat.ltb_spec i (S a)), (Nat.eqb_spec i a), (Nat.eqb_spec i (S a)), (Nat.eqb_spec j 0); cbn; try lia; reflexivity.
  - exists s'. split; [exact X|]. split; [|exact SB]. rewrite E. f_equal. apply grid_ext. intros i j Li Lj.
    now replace (i <? n)%nat with true by (symmetry; now apply Nat.ltb_lt).
Qed.

Lemma matmul_sem H V (s : mstate) x y z t c1 c2 c3 lx ly n p m : In x V -> In y V -> ty z = TDouble ->
  (1 <= n)%nat -> (1 <= p)%nat -> (1 <= m)%nat -> Z.of_nat n < 2 ^ 30 -> Z.of_nat p < 2 ^ 30 -> Z.of_nat m < 2 ^ 30 ->
  2 * Z.of_nat (n * m) <= lim -> 2 * Z.of_nat p <= lim ->
  fst s x = map VD lx -> length lx = (n * p)%nat -> snd s x = Some (Z.of_nat n, Z.of_nat p) ->
  fst s y = map VD ly -> length ly = (p * m)%nat -> snd s y = Some (Z.of_nat p, Z.of_nat m) ->
  ~ In z (H ++ V) -> ~ In t (H ++ V) -> z <> t ->
  ~ In c1 (H ++ z :: V) -> ~ In c2 (c1 :: H ++ z :: V) -> ~ In c3 (c2 :: c1 :: H ++ z :: V) ->
  exists s1 : mstate, fst s1 z = map VD (grid n m (fun i j => dot lx ly n p i j p)) /\ snd s1 z = Some (Z.of_nat n, Z.of_nat m) /\
    (forall u, u <> z -> fst s1 u = fst s u /\ snd s1 u = snd s u) /\
    forall rest r s', lsem N lm ty lim H (z :: V) rest s1 r s' ->
      lsem N lm ty lim H V (matmul z t c1 c2 c3 x y (Z.of_nat n) (Z.of_nat p) (Z.of_nat m) rest) s r s'.
Proof.
  intros Vx Vy Tz Ln Lp Lm Bn Bp Bm Fl Fp Ex Lx Sx Ey Ly Sy Nz Nt Ne N1 N2 N3.
  assert (Nxz : x <> z) by (intros ->; apply Nz, in_or_app; auto).
  assert (Nyz : y <> z) by (intros ->; apply Nz, in_or_app; auto).
  set (s0 := (setl (fst s) z (map VD (grid n m (fun _ _ => fzero))), setd (snd s) z (Some (Z.of_nat n, Z.of_nat m)))).
  destruct (matmul_loops H (z :: V) s0 x y z c1 c2 c3 lx ly n p m) as [s1 [X [E [O S1]]]]; auto; try (now right); try (now left); try nia;
    try (unfold s0; cbn [fst snd]; rewrite ?setl_same, ?setd_same, ?setl_other, ?setd_other by congruence; auto; fail).
  exists s1. split; [exact E|]. split; [rewrite S1; unfold s0; cbn [snd]; now rewrite setd_same|]. split.
  + intros u Hu. rewrite O, S1 by exact Hu. unfold s0. cbn [fst snd]. now rewrite setl_other, setd_other by auto.
  + intros rest r s' Xr. unfold matmul. cbn [lsem]. eexists _, _. split; [exact Nz|]. split; [exact Nt|]. split; [exact Ne|].
    split; [exact Tz|]. split; [apply zero_matrix; auto; nia|]. exists Ended, s1. split; [exact X|exact Xr].
Qed.
End Loops.

(* -------------------------------------------------------------- exactness *)

Lemma dot_exact lx ly n p m a b i j : (i < n)%nat -> (j < m)%nat ->
  (forall i k, (i < n)%nat -> (k < p)%nat -> whole (entry lx n i k) (a i k)) ->
  (forall k j, (k < p)%nat -> (j < m)%nat -> whole (entry ly p k j) (b k j)) ->
  (forall k, (k < p)%nat -> Z.abs (a i k * b k j) <= 2 ^ 53) ->
  (forall k, (k <= p)%nat -> Z.abs (zdot a b i j k) <= 2 ^ 53) ->
  forall k, (k <= p)%nat -> whole (dot lx ly n p i j k) (zdot a b i j k).
Proof.
  intros Li Lj Wa Wb Bp Bs.
  assert (Big : forall z, Z.abs z <= 2 ^ 53 -> (Rabs (IZR z) <= bpow radix2 1000)%R).
  { intros z Hz. rewrite <- abs_IZR. apply Rle_trans with (IZR (2 ^ 1000)).
    - apply IZR_le. eapply Z.le_trans; [exact Hz|]. apply Z.pow_le_mono_r; lia.
    - rewrite (IZR_Zpower radix2) by lia. lra. }
  induction k as [|k IH]; intros L; cbn [dot zdot].
  - split; [reflexivity|]. split; reflexivity.
  - destruct (IH ltac:(lia)) as [V1 [F1 R1]]. destruct (Wa i k Li ltac:(lia)) as [V2 [F2 R2]]. destruct (Wb k j ltac:(lia) Lj) as [V3 [F3 R3]].
    pose proof (Bp k ltac:(lia)) as Bk. pose proof (Bs (S k) L) as Bk'. cbn [zdot] in Bk'.
    destruct (fmul_correct _ _ V2 V3 F2 F3) as [R4 [F4 V4]]; [rewrite R2, R3, <- mult_IZR; now apply Big|].
    rewrite R2, R3, <- mult_IZR in R4. rewrite round_generic in R4 by (auto with typeclass_instances; now apply generic_int).
    destruct (fadd_correct _ _ V1 V4 F1 F4) as [R5 [F5 V5]]; [rewrite R1, R4, <- plus_IZR; now apply Big|].
    rewrite R1, R4, <- plus_IZR in R5. rewrite round_generic in R5 by (auto with typeclass_instances; now apply generic_int).
    split; [exact V5|]. split; [exact F5|exact R5].
Qed.
