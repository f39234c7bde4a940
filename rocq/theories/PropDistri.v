(** Properties C47, C48: distribution functions and the random number state. *)
From Coq Require Import String ZArith List Bool Lia Arith.
From Verif Require Import Base Num StoreModel VecModel Spec SpecExpr SpecHist SpecProg StoreProofs DistriModel SpecDistri
  DistriProofs StoreHist StoreThms2 Examples.
Import ListNotations.
Open Scope Z_scope.
Local Notation length := List.length (only parsing).

Lemma length_one {A} (l : list A) : l <> [] -> (length l <= 1)%nat -> exists v, l = [v].
Proof. destruct l as [|v [|]]; cbn; intros N H; [congruence|now exists v|lia]. Qed.

Lemma not_longer w x v (l : list flt) : vholds w x [v] -> (2 <= length l)%nat -> ~ vholds w x (map VD l).
Proof. intros [S1 _] L [S2 _]. rewrite S1, map_length in S2. cbn in S2. lia. Qed.

(* ------------------------------------------------------------------ C47 *)

(** dunif, dnorm, dlnorm, dgamma with arguments of length one return the
    density R computes (the gamma function receives 1/rate as scale), for any R.
    Missing to the full property: arguments of other lengths, see below. *)
Theorem c47_density_partial : forall R k res x a b lg xs las bs ls r, can_call r res ->
  given r res x xs -> given r res a las -> given r res b bs -> given r res lg ls ->
  longest [xs; las; bs; ls] = 1%nat -> has_int (nth 0 ls fzero) ->
  exists r', d_etr R k res x a b lg r = (Done tt, r') /\ returned r r' res (want_d R k xs las bs ls) /\ rng r' = rng r.
Proof.
  intros R k res x a b lg xs las bs ls r [WO [D1 [D2 Ft]]] [N1 [H1 L1]] [N2 [H2 L2]] [N3 [H3 L3]] [N4 [H4 L4]] L I.
  rewrite <- (lane_0 ls L4) in I.
  destruct (d_etr_done R k res x a b lg xs las bs ls r) as [w' [E [V [WO' [O H]]]]]; auto.
  eexists. split; [exact E|]. split; [|reflexivity]. unfold returned, want_d. rewrite L. cbn [rw]. auto.
Qed.
Print Assumptions c47_density_partial.

(** With a longer argument the result still has one element, the first of the
    wanted result; the wanted result is at least two long. *)
Theorem c47_density_refuted : forall R k res x a b lg xs las bs ls r, can_call r res ->
  given r res x xs -> given r res a las -> given r res b bs -> given r res lg ls ->
  (2 <= longest [xs; las; bs; ls])%nat -> has_int (nth 0 ls fzero) ->
  exists r', d_etr R k res x a b lg r = (Done tt, r') /\ returned r r' res (firstn 1 (want_d R k xs las bs ls)) /\
    ~ vholds (rw r') res (map VD (want_d R k xs las bs ls)).
Proof.
  intros R k res x a b lg xs las bs ls r [WO [D1 [D2 Ft]]] [N1 [H1 L1]] [N2 [H2 L2]] [N3 [H3 L3]] [N4 [H4 L4]] L I.
  rewrite <- (lane_0 ls L4) in I.
  destruct (d_etr_done R k res x a b lg xs las bs ls r) as [w' [E [V [WO' [O H]]]]]; auto.
  eexists. split; [exact E|]. unfold returned. cbn [rw]. split.
  - unfold want_d. destruct (longest [xs; las; bs; ls]); [lia|]. cbn [seq map firstn]. auto.
  - eapply not_longer; [exact H|]. unfold want_d. now rewrite map_length, seq_length.
Qed.
Print Assumptions c47_density_refuted.

(** The probability functions and the quantile functions. *)
Theorem c47_probability_partial : forall R k res x a b lower lg xs las bs lows ls r, can_call r res ->
  given r res x xs -> given r res a las -> given r res b bs -> given r res lower lows -> given r res lg ls ->
  longest [xs; las; bs; lows; ls] = 1%nat -> has_int (nth 0 lows fzero) -> has_int (nth 0 ls fzero) ->
  exists r', p_etr R k res x a b lower lg r = (Done tt, r') /\
    returned r r' res (want_pq (rm_p R k) k xs las bs lows ls) /\ rng r' = rng r.
Proof.
  intros R k res x a b lower lg xs las bs lows ls r [WO [D1 [D2 Ft]]] [N1 [H1 L1]] [N2 [H2 L2]] [N3 [H3 L3]] [N5 [H5 L5]]
    [N4 [H4 L4]] L I J. rewrite <- (lane_0 ls L4) in J. rewrite <- (lane_0 lows L5) in I.
  destruct (pq_done (rm_p R) k res x a b lower lg xs las bs lows ls r) as [w' [E [V [WO' [O H]]]]]; auto.
  eexists. split; [exact E|]. split; [|reflexivity]. unfold returned, want_pq. rewrite L. cbn [rw]. auto.
Qed.
Print Assumptions c47_probability_partial.

Theorem c47_quantile_partial : forall R k res x a b lower lg xs las bs lows ls r, can_call r res ->
  given r res x xs -> given r res a las -> given r res b bs -> given r res lower lows -> given r res lg ls ->
  longest [xs; las; bs; lows; ls] = 1%nat -> has_int (nth 0 lows fzero) -> has_int (nth 0 ls fzero) ->
  exists r', q_etr R k res x a b lower lg r = (Done tt, r') /\
    returned r r' res (want_pq (rm_q R k) k xs las bs lows ls) /\ rng r' = rng r.
Proof.
  intros R k res x a b lower lg xs las bs lows ls r [WO [D1 [D2 Ft]]] [N1 [H1 L1]] [N2 [H2 L2]] [N3 [H3 L3]] [N5 [H5 L5]]
    [N4 [H4 L4]] L I J. rewrite <- (lane_0 ls L4) in J. rewrite <- (lane_0 lows L5) in I.
  destruct (pq_done (rm_q R) k res x a b lower lg xs las bs lows ls r) as [w' [E [V [WO' [O H]]]]]; auto.
  eexists. split; [exact E|]. split; [|reflexivity]. unfold returned, want_pq. rewrite L. cbn [rw]. auto.
Qed.
Print Assumptions c47_quantile_partial.

Theorem c47_probability_refuted : forall R k res x a b lower lg xs las bs lows ls r, can_call r res ->
  given r res x xs -> given r res a las -> given r res b bs -> given r res lower lows -> given r res lg ls ->
  (2 <= longest [xs; las; bs; lows; ls])%nat -> has_int (nth 0 lows fzero) -> has_int (nth 0 ls fzero) ->
  exists r', p_etr R k res x a b lower lg r = (Done tt, r') /\
    returned r r' res (firstn 1 (want_pq (rm_p R k) k xs las bs lows ls)) /\
    ~ vholds (rw r') res (map VD (want_pq (rm_p R k) k xs las bs lows ls)).
Proof.
  intros R k res x a b lower lg xs las bs lows ls r [WO [D1 [D2 Ft]]] [N1 [H1 L1]] [N2 [H2 L2]] [N3 [H3 L3]] [N5 [H5 L5]]
    [N4 [H4 L4]] L I J. rewrite <- (lane_0 ls L4) in J. rewrite <- (lane_0 lows L5) in I.
  destruct (pq_done (rm_p R) k res x a b lower lg xs las bs lows ls r) as [w' [E [V [WO' [O H]]]]]; auto.
  eexists. split; [exact E|]. unfold returned. cbn [rw]. split.
  - unfold want_pq. destruct (longest [xs; las; bs; lows; ls]); [lia|]. cbn [seq map firstn]. auto.
  - eapply not_longer; [exact H|]. unfold want_pq. now rewrite map_length, seq_length.
Qed.
Print Assumptions c47_probability_refuted.

Theorem c47_quantile_refuted : forall R k res x a b lower lg xs las bs lows ls r, can_call r res ->
  given r res x xs -> given r res a las -> given r res b bs -> given r res lower lows -> given r res lg ls ->
  (2 <= longest [xs; las; bs; lows; ls])%nat -> has_int (nth 0 lows fzero) -> has_int (nth 0 ls fzero) ->
  exists r', q_etr R k res x a b lower lg r = (Done tt, r') /\
    returned r r' res (firstn 1 (want_pq (rm_q R k) k xs las bs lows ls)) /\
    ~ vholds (rw r') res (map VD (want_pq (rm_q R k) k xs las bs lows ls)).
Proof.
  intros R k res x a b lower lg xs las bs lows ls r [WO [D1 [D2 Ft]]] [N1 [H1 L1]] [N2 [H2 L2]] [N3 [H3 L3]] [N5 [H5 L5]]
    [N4 [H4 L4]] L I J. rewrite <- (lane_0 ls L4) in J. rewrite <- (lane_0 lows L5) in I.
  destruct (pq_done (rm_q R) k res x a b lower lg xs las bs lows ls r) as [w' [E [V [WO' [O H]]]]]; auto.
  eexists. split; [exact E|]. unfold returned. cbn [rw]. split.
  - unfold want_pq. destruct (longest [xs; las; bs; lows; ls]); [lia|]. cbn [seq map firstn]. auto.
  - eapply not_longer; [exact H|]. unfold want_pq. now rewrite map_length, seq_length.
Qed.
Print Assumptions c47_quantile_refuted.

(** runif(n, min, max) with numbers draws n times, in order. *)
Theorem c47_uniform_draws_partial : forall R res x a b vx va vb n r, can_call r res ->
  given r res x [vx] -> given r res a [va] -> given r res b [vb] ->
  ftrunc vx = Some n -> 1 <= n < 2 ^ 31 -> fits (rw r) n ->
  exists r', r_etr R DUnif res x a b r = (Done tt, r') /\
    returned r r' res (fst (draws R DUnif va vb (rng r) (Z.to_nat n))) /\
    rng r' = snd (draws R DUnif va vb (rng r) (Z.to_nat n)).
Proof.
  intros R res x a b vx va vb n r [WO [D1 [D2 _]]] [N1 [H1 _]] [N2 [H2 _]] [N3 [H3 _]] T Hn Ft.
  destruct (runif_done R res (of_var x) (of_var a) (of_var b) vx va vb n r) as [w' [E [V [WO' [O H]]]]];
    auto using steady_var.
  eexists. split; [exact E|]. split; [|reflexivity]. unfold returned. cbn [rw]. auto.
Qed.
Print Assumptions c47_uniform_draws_partial.

(** rnorm, rlnorm, rgamma with the number one draw once. *)
Theorem c47_single_draw_partial : forall R k res x a b vx va vb r, k <> DUnif -> can_call r res ->
  given r res x [vx] -> given r res a [va] -> given r res b [vb] -> ftrunc vx = Some 1 ->
  exists r', r_etr R k res x a b r = (Done tt, r') /\
    returned r r' res (fst (draws R k va (third k vb) (rng r) 1)) /\ rng r' = snd (draws R k va (third k vb) (rng r) 1).
Proof.
  intros R k res x a b vx va vb r NU [WO [D1 [D2 Ft]]] [N1 [H1 _]] [N2 [H2 _]] [N3 [H3 _]] T.
  destruct (r_etr_rand R k res x a b [vb] r H3 N3) as [bb [Sb Eb]]. rewrite Eb.
  destruct (rand_single R k res (of_var x) (of_var a) bb vx va (third k vb) r) as [w' [E [V [WO' [O H]]]]];
    auto using steady_var.
  eexists. split; [exact E|]. split; [|reflexivity]. unfold returned. cbn [rw]. auto.
Qed.
Print Assumptions c47_single_draw_partial.

(** With any larger number they write behind the end of the result; the
    exception leaves the function while its mutex is locked. *)
Theorem c47_draws_refuted : forall R k res x a b vx va vb n r, k <> DUnif -> can_call r res ->
  given r res x [vx] -> given r res a [va] -> given r res b [vb] -> ftrunc vx = Some n -> 2 <= n < 2 ^ 31 ->
  exists r', r_etr R k res x a b r = (Undef UB_mutex, r').
Proof.
  intros R k res x a b vx va vb n r NU [WO [D1 [D2 Ft]]] [N1 [H1 _]] [N2 [H2 _]] [N3 [H3 _]] T Hn.
  destruct (r_etr_rand R k res x a b [vb] r H3 N3) as [bb [Sb Eb]]. rewrite Eb.
  destruct (rand_many R k res (of_var x) (of_var a) bb vx va (third k vb) n r) as [r' [E _]]; auto using steady_var.
  now exists r'.
Qed.
Print Assumptions c47_draws_refuted.

(** All random functions with a longer argument return one draw. *)
Theorem c47_draw_length_refuted : forall R k res x a b xs las bs r, can_call r res ->
  given r res x xs -> given r res a las -> given r res b bs -> (2 <= longest [xs; las; bs])%nat ->
  exists r' v, r_etr R k res x a b r = (Done tt, r') /\ returned r r' res [v] /\
    v = fst (rm_r R k (rng r) (nth 0 las fzero) (third k (nth 0 bs fzero))).
Proof.
  intros R k res x a b xs las bs r [WO [D1 [D2 Ft]]] [N1 [H1 L1]] [N2 [H2 L2]] [N3 [H3 L3]] L.
  destruct (r_etr_rand R k res x a b bs r H3 N3) as [bb [Sb Eb]]. rewrite Eb.
  destruct (rand_one R k res (of_var x) (of_var a) bb xs las (thirds k bs) r) as [w' [E [V [WO' [O H]]]]];
    auto using steady_var, thirds_ne.
  { unfold longest in *. cbn [fold_right] in *. unfold thirds. now rewrite map_length. }
  rewrite thirds_lane, !lane_0 in * by auto.
  eexists. eexists. split; [exact E|]. split; [|reflexivity]. unfold returned. cbn [rw map]. auto.
Qed.
Print Assumptions c47_draw_length_refuted.

(** Vector 0 holds 3, vector 1 holds 1, vector 2 holds 0, 0; vectors from 3 on do
    not exist. *)
Definition ex47_ops : list sop :=
  [ SNew (OD 0) TDouble 1; SSet (OD 0) 0 d3; SDefault (OT 0) TDouble;
    SNew (OD 1) TDouble 1; SSet (OD 1) 0 d1; SDefault (OT 1) TDouble; SNew (OD 2) TDouble 2; SDefault (OT 2) TDouble ].
Definition ex47_r : rworld := mkRw (snd (exec ex47_ops (empty_world 1000))) 7 [].
Lemma ex47_can : can_call ex47_r 3.
Proof.
  split; [|split; [apply unborn_ptr; vm_compute; reflexivity|split; [apply unborn_ptr; vm_compute; reflexivity|vm_compute; congruence]]].
  assert (A : allowed ex47_ops (empty_world 1000)) by show_allowed.
  pose proof (exec_final 1000 ex47_ops ltac:(lia) A) as B. unfold ex47_r. cbn [rw].
  rewrite (exec_run ex47_ops (empty_world 1000)) in B by (vm_compute; reflexivity). apply B.
Qed.
Lemma ex47_given0 : given ex47_r 3 0 [i2f 3].
Proof. split; [lia|]. split; [show_holds|discriminate]. Qed.
Lemma ex47_given1 : given ex47_r 3 1 [i2f 1].
Proof. split; [lia|]. split; [show_holds|discriminate]. Qed.
Lemma ex47_given2 : given ex47_r 3 2 [fzero; fzero].
Proof. split; [lia|]. split; [show_holds|discriminate]. Qed.
Example c47_ex : longest [[i2f 3]; [i2f 1]; [i2f 3]; [i2f 1]] = 1%nat /\ has_int (nth 0 [i2f 1] fzero) /\
  ftrunc (i2f 3) = Some 3 /\ fits (rw ex47_r) 3 /\ ftrunc (i2f 1) = Some 1 /\
  (2 <= longest [[i2f 3]; [fzero; fzero]; [i2f 1]; [i2f 1]])%nat.
Proof.
  split; [reflexivity|]. split; [eexists; vm_compute; reflexivity|]. split; [vm_compute; reflexivity|].
  split; [vm_compute; congruence|]. split; [vm_compute; reflexivity|]. cbn. lia.
Qed.

(* ------------------------------------------------------------------ C48 *)

(** In one thread: whatever the arguments, a call of any of the sixteen
    functions that returns or throws (and does not run into undefined
    behaviour) locks its mutex, fetches, stores and unlocks in this order, a
    number of times, and nothing else. *)
Theorem c48_pairs_partial : forall R k res x a b lower lg m,
  In m [d_etr R k res x a b lg; p_etr R k res x a b lower lg; q_etr R k res x a b lower lg; r_etr R k res x a b] ->
  forall r o r', m r = (o, r') -> (forall u, o <> Undef u) -> exists n, rlog r' = rlog r ++ rounds n.
Proof.
  intros R k res x a b lower lg m Hm r o r' E N.
  assert (P : paired m).
  { destruct Hm as [<-|[<-|[<-|[<-|[]]]]]; auto using paired_d, paired_p, paired_q, paired_r. }
  specialize (P r). rewrite E in P. destruct o as [u|e|u]; auto. now destruct (N u).
Qed.
Print Assumptions c48_pairs_partial.

Example c48_pairs_ex : forall R, exists r',
  r_etr R DUnif 3 0 1 1 ex47_r = (Done tt, r') /\ rlog r' = rounds 3.
Proof.
  intros R. destruct ex47_can as [WO [D1 [D2 _]]], ex47_given0 as [N1 [H1 _]], ex47_given1 as [N2 [H2 _]].
  destruct (runif_done R 3 (of_var 0) (of_var 1) (of_var 1) (i2f 3) (i2f 1) (i2f 1) 3 ex47_r) as [w' [E _]];
    auto using steady_var; try (vm_compute; congruence); try lia.
  eexists. split; [exact E|]. reflexivity.
Qed.

(** But rnorm, rlnorm and rgamma with a number above one fetch the state and
    never store it. *)
Theorem c48_fetch_only_refuted : forall R k res x a b vx va vb n r, k <> DUnif -> can_call r res ->
  given r res x [vx] -> given r res a [va] -> given r res b [vb] -> ftrunc vx = Some n -> 2 <= n < 2 ^ 31 ->
  exists r', r_etr R k res x a b r = (Undef UB_mutex, r') /\ rlog r' = rlog r ++ rounds 1 ++ [ELock; EGet].
Proof.
  intros R k res x a b vx va vb n r NU [WO [D1 [D2 Ft]]] [N1 [H1 _]] [N2 [H2 _]] [N3 [H3 _]] T Hn.
  destruct (r_etr_rand R k res x a b [vb] r H3 N3) as [bb [Sb Eb]]. rewrite Eb.
  apply (rand_many R k res (of_var x) (of_var a) bb vx va (third k vb) n r); auto using steady_var.
Qed.
Print Assumptions c48_fetch_only_refuted.

(** Any number of threads whose calls use one mutex never fetch the state while
    another thread has fetched it and not yet stored it.
    Missing to the full property: in the code every call has its own mutex. *)
Theorem c48_shared_mutex_partial : forall m calls, (forall t, Forall (fun c => fst c = m) (calls t)) -> apart calls.
Proof.
  intros m calls H tr s t1 t2 T I1 I2.
  destruct (shared_good m calls tr s H T t1) as [[_ [A _]]|[A _]]; [congruence|].
  destruct (shared_good m calls tr s H T t2) as [[_ [B _]]|[B _]]; congruence.
Qed.
Print Assumptions c48_shared_mutex_partial.

Example c48_shared_ex : exists tr s, truns (start_threads (fun t => [(0, t)]%nat)) tr s /\ inside tr 2 = true.
Proof.
  exists ([] ++ [(2, TLock 0)] ++ [(2, TGet)])%nat. eexists. split; [|reflexivity].
  rewrite app_assoc. eapply tr_snoc; [eapply tr_snoc; [apply tr_nil|eapply ts_lock; reflexivity]|eapply ts_get; reflexivity].
Qed.

(** With a mutex of its own for every call, any two threads that draw at least
    once can both have fetched the state and not stored it. *)
Theorem c48_threads_refuted : forall calls t1 t2, t1 <> t2 ->
  (exists c, In c (calls t1) /\ (1 <= snd c)%nat) -> (exists c, In c (calls t2) /\ (1 <= snd c)%nat) ->
  (forall c1 c2, In c1 (calls t1) -> In c2 (calls t2) -> fst c1 <> fst c2) ->
  ~ apart calls.
Proof.
  intros calls t1 t2 N C1 C2 D A. destruct (both_inside calls t1 t2 N C1 C2 D) as [tr [s [T [I1 I2]]]].
  exact (N (A tr s t1 t2 T I1 I2)).
Qed.
Print Assumptions c48_threads_refuted.

Example c48_threads_ex : ~ apart (fun t => [(t, 5)]%nat).
Proof.
  apply (c48_threads_refuted _ 0 1)%nat; [lia|exists (0, 5)%nat; cbn; split; [auto|lia]|exists (1, 5)%nat; cbn; split; [auto|lia]|].
  intros c1 c2 [<-|[]] [<-|[]]. cbn. lia.
Qed.
