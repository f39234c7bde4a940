(** C104: programs can be proved correct with invariants and variants; Euclid's
    algorithm on int vectors computes the greatest common divisor. *)
From Coq Require Import String ZArith List Bool Lia.
From Verif Require Import Base Num StoreModel VecModel SubsetModel ProgModel LangModel Spec SpecExpr SpecProg SpecCons SpecStmt SpecLang SpecMat SpecRewrite SpecHoare
  FloatBridge StoreProofs VecEval MatThms CallProofs PropMat HoareProofs RewriteProofs PropRewrite.
Import ListNotations.
Open Scope Z_scope.

(** What the rules prove holds of the run in memory. *)
Theorem c104_sound : forall lm ty lim H V P p Q X, proves lm ty lim H V P p Q X -> achieves lm ty lim H V P p Q X.
Proof. intros lm ty lim H V P p Q X D. apply tot_achieves. exact (proves_tot lm ty lim H V P p Q X D). Qed.
Print Assumptions c104_sound.

(** The rules suffice: whatever the meaning on lists says about a program, for
    any assertions, they prove; and nothing else. *)
Theorem c104_complete : forall lm ty lim H V (P : mstate -> Prop) p (Q : mstate -> Prop) (X : exn -> mstate -> Prop),
  proves lm ty lim H V P p Q X <->
  (forall s, P s -> exists N r s', lsem N lm ty lim H V p s r s' /\ post Q X r s').
Proof.
  intros lm ty lim H V P p Q X. split; [|apply meant_proves]. intros D s Ps.
  destruct (proves_tot lm ty lim H V P p Q X D s Ps) as [N0 [r [s' [L O]]]]. exists N0, r, s'. split; [apply L, le_n|exact O].
Qed.
Print Assumptions c104_complete.

(** What is said about vectors that the program does not assign to may be added
    on both sides, and to the exceptions. *)
Theorem c104_frame : forall lm ty lim H V A S p (P Q F : mstate -> Prop) (X : exn -> mstate -> Prop), touches A S p -> apart_from S F ->
  proves lm ty lim H V P p Q X ->
  proves lm ty lim H V (fun s => P s /\ F s) p (fun s => Q s /\ F s) (fun e s => X e s /\ F s).
Proof.
  intros lm ty lim H V A S p P Q F X T AF D. apply c104_complete. intros s [Ps Fs].
  destruct (proj1 (c104_complete lm ty lim H V P p Q X) D s Ps) as [N [r [s' [L O]]]]. exists N, r, s'. split; [exact L|].
  assert (F' : F s') by (apply (AF s s'); [|exact Fs]; intros x Nx; exact (lsem_stays N lm ty lim A S p T H V s r s' L x Nx)).
  destruct r; cbn [post] in *; auto.
Qed.
Print Assumptions c104_frame.

(** Two facts about the same program hold together. *)
Theorem c104_both : forall lm ty lim H V p (P1 P2 Q1 Q2 : mstate -> Prop) (X1 X2 : exn -> mstate -> Prop),
  about V Q2 -> (forall e, about V (X2 e)) ->
  achieves lm ty lim H V P1 p Q1 X1 -> achieves lm ty lim H V P2 p Q2 X2 ->
  achieves lm ty lim H V (fun s => P1 s /\ P2 s) p (fun s => Q1 s /\ Q2 s) (fun e s => X1 e s /\ X2 e s).
Proof.
  intros lm ty lim H V p P1 P2 Q1 Q2 X1 X2 BQ BX D1 D2 w s A [Ps1 Ps2].
  destruct (D1 w s A Ps1) as [N1 [o1 [w1 [s1 [R1 [A1 [L1 O1]]]]]]]. destruct (D2 w s A Ps2) as [N2 [o2 [w2 [s2 [R2 [A2 [_ O2]]]]]]].
  assert (E : (o1, w1) = (o2, w2)) by (rewrite <- (R1 (Nat.max N1 N2)), <- (R2 (Nat.max N1 N2)) by lia; reflexivity).
  injection E as <- <-. exists N1, o1, w1, s1. split; [exact R1|]. split; [exact A1|]. split; [exact L1|].
  assert (U : forall x, In x V -> fst s1 x = fst s2 x /\ snd s1 x = snd s2 x).
  { intros x Hx. split; [|now rewrite <- (proj2 A1 x Hx), <- (proj2 A2 x Hx)].
    apply (holds_unique w1 (OD x)); [apply (re_holds _ _ _ _ _ (proj1 (proj1 A1)))|apply (re_holds _ _ _ _ _ (proj1 (proj1 A2)))]; exact Hx. }
  destruct o1 as [b|e|u]; [|split; [exact O1|exact (BX e s2 s1 U O2)]|destruct O1].
  destruct O1 as [-> O1], O2 as [_ O2]. split; [reflexivity|]. split; [exact O1|exact (BQ s2 s1 U O2)].
Qed.
Print Assumptions c104_both.

Lemma assign_one lm ty lim H V x e e' v v' (s : mstate) : 2 <= lim -> In x V -> lmeans lm V (fst s) (snd s) e (Done e') -> incl (vars e') V ->
  wf_expr (fst s) e' -> xsize (fst s) e' = 1 -> xval lm (fst s) e' 0 = Done v -> cast (ty x) v = Done v' ->
  exists sh, lsem 0 lm ty lim H V (LAssign x e) s Ended (setl (fst s) x [v'], sh).
Proof.
  intros Bl Hx Me In' Wf Sz Xv Ca. eexists. cbn [lsem]. exists (Done e'). split; [exact Me|]. cbn [given]. unfold does.
  assert (Va : value lm (fst s) (ty x) e' = Done [v']).
  { unfold value. rewrite Sz. change (Z.to_nat 1) with 1%nat. cbn [zseq omap]. rewrite Xv. cbn [obind]. rewrite Ca. reflexivity. }
  cbn [spec_cmd cmd_wf]. rewrite Sz. change (1 =? 0) with false. cbn match. rewrite Va. cbn [fst snd ends_as].
  split; [|split; reflexivity]. split; [exact Hx|]. split; [exact In'|]. split; [exact Wf|]. split; [vm_compute; discriminate|lia].
Qed.

Section Euclid.
Variables (lm : libm) (ty : nat -> ety) (lim : Z) (H V : list nat) (a b t : nat) (x y : Z).
Hypotheses (Ha : In a V) (Hb : In b V) (Ht : In t V) (Nab : a <> b) (Nat' : a <> t) (Nbt : b <> t)
  (Ta : ty a = TInt) (Tb : ty b = TInt) (Tt : ty t = TInt) (Bl : 2 <= lim) (Bx : 0 <= x < 2 ^ 31) (By : 0 <= y < 2 ^ 31).

Definition num (s : mstate) (v : nat) : Z := match fst s v with [VI z] => z | _ => 0 end.
Definition inv (s : mstate) : Prop :=
  exists p q, fst s a = [VI p] /\ fst s b = [VI q] /\ 0 <= p < 2 ^ 31 /\ 0 <= q < 2 ^ 31 /\ Z.gcd p q = Z.gcd x y.
Definition vari (s : mstate) : nat := Z.to_nat (2 * (num s a + num s b) + (if num s a <? num s b then 1 else 0)).
Definition again (s : mstate) : val := VD (v2f (VB (0 <? num s b))).
Definition bigger (s : mstate) : val := VD (v2f (VB (num s b <=? num s a))).

Lemma truth_bool c : truth (VD (v2f (VB c))) = c.
Proof. cbn [truth v2f]. rewrite i2f_truth. now destruct c. Qed.

Lemma again_ok s : inv s -> lvalue lm V s (LBin OGt (LVar b) (LLit (VI 0))) (Done (again s)).
Proof.
  intros [p [q [Ea [Eb _]]]]. exists (Done (EBin OGt (EVar b) (ESca (VI 0)))). split.
  - cbn [lmeans]. exists (Done (EVar b)), (Done (ESca (VI 0))). split; [now split|]. split; reflexivity.
  - unfold again, num. split.
    + intros e' E. injection E as <-. cbn [wf_expr xsize]. rewrite Eb. cbn. lia.
    + cbn [obind xval xsize]. rewrite Eb. cbn. reflexivity.
Qed.

Lemma bigger_ok s : inv s -> lvalue lm V s (LBin OGe (LVar a) (LVar b)) (Done (bigger s)).
Proof.
  intros [p [q [Ea [Eb _]]]]. exists (Done (EBin OGe (EVar a) (EVar b))). split.
  - cbn [lmeans]. exists (Done (EVar a)), (Done (EVar b)). split; [now split|]. split; [now split|reflexivity].
  - unfold bigger, num. split.
    + intros e' E. injection E as <-. cbn [wf_expr xsize]. rewrite Ea, Eb. cbn. lia.
    + cbn [obind xval xsize]. rewrite Ea, Eb. cbn. reflexivity.
Qed.

(** One assignment of a vector to another. *)
Lemma copy_one (s : mstate) u v z : In u V -> In v V -> ty u = TInt -> fst s v = [VI z] ->
  exists sh, lsem 0 lm ty lim H V (LAssign u (LVar v)) s Ended (setl (fst s) u [VI z], sh).
Proof.
  intros Hu Hv Tu E. apply (assign_one lm ty lim H V u (LVar v) (EVar v) (VI z) (VI z) s Bl Hu).
  - now split.
  - intros k [<-|[]]. exact Hv.
  - exact I.
  - cbn [xsize]. rewrite E. reflexivity.
  - cbn [xval]. rewrite E. reflexivity.
  - rewrite Tu. reflexivity.
Qed.
Lemma less_one (s : mstate) p q : fst s a = [VI p] -> fst s b = [VI q] -> 0 <= q <= p -> p < 2 ^ 31 ->
  exists sh, lsem 0 lm ty lim H V (LAssign a (LBin OMinus (LVar a) (LVar b))) s Ended (setl (fst s) a [VI (p - q)], sh).
Proof.
  intros Ea Eb B1 B2. apply (assign_one lm ty lim H V a _ (EBin OMinus (EVar a) (EVar b)) (VI (p - q)) (VI (p - q)) s Bl Ha).
  - cbn [lmeans]. exists (Done (EVar a)), (Done (EVar b)). split; [now split|]. split; [now split|reflexivity].
  - intros k Hk. cbn in Hk. destruct Hk as [<-|[<-|[]]]; assumption.
  - cbn [wf_expr xsize]. rewrite Ea, Eb. cbn. lia.
  - cbn [xsize]. rewrite Ea, Eb. reflexivity.
  - cbn [xval xsize]. rewrite Ea, Eb. change (0 mod Z.of_nat (length [VI p])) with 0.
    change (0 mod Z.of_nat (length [VI q])) with 0. cbn [pick_val nth_error Z.to_nat obind bin_f]. unfold trait_arith, arith. cbn [v2z].
    unfold int_res, in_int, int_min, int_max. replace ((- 2 ^ 31 <=? p - q) && (p - q <=? 2 ^ 31 - 1)) with true by (symmetry; apply andb_true_intro; split; apply Z.leb_le; lia).
    reflexivity.
  - rewrite Ta. reflexivity.
Qed.

Lemma euclid_proved : proves lm ty lim H V (fun s => fst s a = [VI x] /\ fst s b = [VI y]) (euclid a b t)
  (fun s => fst s a = [VI (Z.gcd x y)] /\ fst s b = [VI 0]) (fun _ _ => False).
Proof.
  apply (Pv_conseq lm ty lim H V inv _ (euclid a b t) (fun s => inv s /\ truth (again s) = false) _ (fun _ _ => False) _).
  - intros s [Ea Eb]. exists x, y. auto.
  - intros s [[p [q [Ea [Eb [Bp [Bq G]]]]]] T]. unfold again in T. rewrite truth_bool in T. unfold num in T. rewrite Eb in T.
    apply Z.ltb_ge in T. assert (q = 0) by lia. subst q. rewrite Z.gcd_0_r, Z.abs_eq in G by lia. rewrite <- G. now split.
  - intros e s [].
  - unfold euclid. apply (rule_while lm ty lim H V inv _ _ _ again vari again_ok). intros n.
    apply (rule_if lm ty lim H V _ _ _ _ _ _ bigger); [intros s [I _]; now apply bigger_ok| |].
    + apply Pv_call; [reflexivity|]. intros s [[[p [q [Ea [Eb [Bp [Bq G]]]]]] [T N]] L].
      unfold again, bigger in *. rewrite truth_bool in T, L. unfold vari in *. unfold num in *. rewrite Ea, Eb in N. rewrite Eb in T. rewrite Ea, Eb in L.
      apply Z.ltb_lt in T. apply Z.leb_le in L.
      destruct (less_one s p q Ea Eb) as [sh Le]; [lia|lia|]. eexists _, _. split; [exact Le|]. cbn [post fst]. split.
      * exists (p - q), q. cbn [fst]. rewrite setl_same, setl_other by congruence. split; [reflexivity|]. split; [exact Eb|].
        split; [lia|]. split; [lia|]. rewrite <- G. rewrite Z.gcd_comm, Z.gcd_sub_diag_r. apply Z.gcd_comm.
      * cbn [fst]. rewrite setl_same, setl_other by congruence. rewrite Eb. subst n.
        destruct (p - q <? q), (p <? q) eqn:?; lia.
    + apply (Pv_seq lm ty lim H V _ _ (fun s => exists p q, fst s a = [VI p] /\ fst s b = [VI q] /\ fst s t = [VI p] /\ 0 <= p < q /\ q < 2 ^ 31 /\
        Z.gcd p q = Z.gcd x y /\ n = Z.to_nat (2 * (p + q) + 1))).
      * apply Pv_call; [reflexivity|]. intros s [[[p [q [Ea [Eb [Bp [Bq G]]]]]] [T N]] L].
        unfold again, bigger in *. rewrite truth_bool in T, L. unfold vari in *. unfold num in *. rewrite Ea, Eb in N. rewrite Eb in T. rewrite Ea, Eb in L.
        apply Z.ltb_lt in T. apply Z.leb_gt in L. replace (p <? q) with true in N by (symmetry; apply Z.ltb_lt; lia).
        destruct (copy_one s t a p Ht Ha Tt Ea) as [sh Le]. eexists _, _. split; [exact Le|]. cbn [post fst]. exists p, q.
        rewrite setl_same, !setl_other by congruence. repeat (split; [first [assumption|reflexivity|lia]|]). lia.
      * apply (Pv_seq lm ty lim H V _ _ (fun s => exists p q, fst s a = [VI q] /\ fst s t = [VI p] /\ 0 <= p < q /\ q < 2 ^ 31 /\
          Z.gcd p q = Z.gcd x y /\ n = Z.to_nat (2 * (p + q) + 1))).
        -- apply Pv_call; [reflexivity|]. intros s [p [q [Ea [Eb [Et [B1 [B2 [G N]]]]]]]].
           destruct (copy_one s a b q Ha Hb Ta Eb) as [sh Le]. eexists _, _. split; [exact Le|]. cbn [post fst]. exists p, q.
           rewrite setl_same, !setl_other by congruence. auto 6.
        -- apply Pv_call; [reflexivity|]. intros s [p [q [Ea [Et [B1 [B2 [G N]]]]]]].
           destruct (copy_one s b t p Hb Ht Tb Et) as [sh Le]. eexists _, _. split; [exact Le|]. cbn [post fst]. split.
           ++ exists q, p. cbn [fst]. rewrite setl_same, setl_other by congruence. rewrite Z.gcd_comm. repeat (split; [first [assumption|reflexivity|lia]|]). exact G.
           ++ unfold vari, num. cbn [fst]. rewrite setl_same, setl_other by congruence. rewrite Ea.
              replace (q <? p) with false by (symmetry; apply Z.ltb_ge; lia). lia.
Qed.
End Euclid.

(** For all non-negative ints x in a and y in b, whatever t holds: the loop ends,
    a holds the greatest common divisor and b 0; no exception, nothing leaks. *)
Theorem c104_gcd : forall lm ty lim H V a b t x y, In a V -> In b V -> In t V -> a <> b -> a <> t -> b <> t ->
  ty a = TInt -> ty b = TInt -> ty t = TInt -> 2 <= lim -> 0 <= x < 2 ^ 31 -> 0 <= y < 2 ^ 31 ->
  achieves lm ty lim H V (fun s => fst s a = [VI x] /\ fst s b = [VI y]) (euclid a b t)
    (fun s => fst s a = [VI (Z.gcd x y)] /\ fst s b = [VI 0]) (fun _ _ => False).
Proof. intros. apply c104_sound. now apply euclid_proved. Qed.
Print Assumptions c104_gcd.

(** And every other vector is as before. *)
Theorem c104_gcd_only : forall lm ty lim H V a b t x y (s0 : mstate), In a V -> In b V -> In t V -> a <> b -> a <> t -> b <> t ->
  ty a = TInt -> ty b = TInt -> ty t = TInt -> 2 <= lim -> 0 <= x < 2 ^ 31 -> 0 <= y < 2 ^ 31 ->
  fst s0 a = [VI x] -> fst s0 b = [VI y] ->
  achieves lm ty lim H V (fun s => s = s0) (euclid a b t)
    (fun s => fst s a = [VI (Z.gcd x y)] /\ fst s b = [VI 0] /\
       forall z, z <> a -> z <> b -> z <> t -> fst s z = fst s0 z /\ snd s z = snd s0 z) (fun _ _ => False).
Proof.
  intros lm ty lim H V a b t x y s0 Ha Hb Ht Nab Nat' Nbt Ta Tb Tt Bl Bx By Ea Eb. apply c104_sound.
  pose proof (euclid_proved lm ty lim H V a b t x y Ha Hb Ht Nab Nat' Nbt Ta Tb Tt Bl Bx By) as D.
  apply (c104_frame lm ty lim H V [a; b; t] [a; b; t] (euclid a b t) _ _
    (fun s : mstate => forall z, z <> a -> z <> b -> z <> t -> fst s z = fst s0 z /\ snd s z = snd s0 z)) in D.
  - apply (Pv_conseq lm ty lim H V _ _ _ _ _ _ _) with (4 := D); [intros s ->; auto|intros s [[E1 E2] E3]; auto|intros e s [[] _]].
  - unfold euclid. cbn [touches lvars app]. unfold incl. cbn. intuition (subst; auto).
  - intros s1 s2 E F1 z Z1 Z2 Z3. destruct (E z) as [E1 E2]; [intros [Y|[Y|[Y|[]]]]; congruence|].
    destruct (F1 z Z1 Z2 Z3) as [G1 G2]. split; [exact (eq_trans E1 G1)|exact (eq_trans E2 G2)].
Qed.
Print Assumptions c104_gcd_only.

Section Gauss.
Variables (lm : libm) (ty : nat -> ety) (lim : Z) (H V : list nat) (s0 col : nat) (n : Z).
Hypotheses (Hs : In s0 V) (Hc : ~ In col (H ++ V)) (Ts : ty s0 = TInt) (Bn : 1 <= n < 65536) (Bl : 2 * n <= lim).

Definition sofar (seen : list val) (s : mstate) : Prop :=
  exists z, 2 * z = Z.of_nat (length seen) * (Z.of_nat (length seen) + 1) /\ fst s s0 = [VI z].

Lemma count_len : length (map VI (count_from 1 n)) = Z.to_nat n.
Proof. unfold count_from. rewrite !map_length, seq_length. lia. Qed.

Lemma count_split seen v todo : map VI (count_from 1 n) = seen ++ v :: todo -> v = VI (1 + Z.of_nat (length seen)) /\ Z.of_nat (length seen) < n.
Proof.
  intros E. pose proof count_len as L. rewrite E, app_length in L. cbn [length] in L. split; [|lia].
  assert (N : nth (length seen) (map VI (count_from 1 n)) (VI (1 + Z.of_nat 0)) = v) by (rewrite E, app_nth2, Nat.sub_diag by lia; reflexivity).
  rewrite <- N. unfold count_from. rewrite map_map. replace (1 <=? n) with true by (symmetry; apply Z.leb_le; lia).
  rewrite (map_nth (fun k => VI (1 + Z.of_nat k))). rewrite seq_nth by lia. reflexivity.
Qed.

Lemma gauss_proved : proves lm ty lim H V (fun _ => True) (gauss s0 col n) (fun s => fst s s0 = [VI (n * (n + 1) / 2)]) (fun _ _ => False).
Proof.
  unfold gauss. apply (Pv_seq lm ty lim H V _ _ (sofar [])).
  - apply Pv_call; [reflexivity|]. intros s _. eexists _, _. cbn [lsem]. unfold does. cbn [spec_cmd cmd_wf]. rewrite Ts. cbn [cast obind fst snd ends_as].
    split; [split; [split; [exact Hs|lia]|split; reflexivity]|]. cbn [post]. exists 0. split; [reflexivity|]. cbn [fst]. apply setl_same.
  - apply (Pv_conseq lm ty lim H V (sofar []) _ _ (sofar (map VI (count_from 1 n))) _ (fun _ _ => False) _); [auto| |auto|].
    + intros s [z [Ez Es]]. rewrite count_len in Ez. rewrite Es. do 2 f_equal. apply Z.div_unique with 0; lia.
    + apply (rule_for lm ty lim H V sofar col _ _ _ TInt (map VI (count_from 1 n)) None Hc).
      * intros s _. split; [rewrite count_len; lia|]. exists [VI 1], [VI n], 1, n. cbn. repeat (split; [first [reflexivity|discriminate|lia|intros u [<-|[]]; reflexivity]|]). reflexivity.
      * intros seen v todo E. destruct (count_split seen v todo E) as [-> Lk]. apply Pv_call; [reflexivity|]. intros s [z [Ez Es]].
        set (k := Z.of_nat (length seen)) in *. assert (Bk : 0 <= k) by (unfold k; lia).
        assert (Bz : 0 <= z + (1 + k) < 2 ^ 31) by (change (2 ^ 31) with 2147483648; nia).
        destruct (assign_one lm ty lim (col :: H) V s0 (LBin OPlus (LVar s0) (LLit (VI (1 + k)))) (EBin OPlus (EVar s0) (ESca (VI (1 + k))))
          (VI (z + (1 + k))) (VI (z + (1 + k))) s) as [sh Le].
        -- lia.
        -- exact Hs.
        -- cbn [lmeans]. exists (Done (EVar s0)), (Done (ESca (VI (1 + k)))). split; [now split|]. split; reflexivity.
        -- intros j Hj. cbn in Hj. destruct Hj as [<-|[]]. exact Hs.
        -- cbn [wf_expr xsize]. rewrite Es. cbn. lia.
        -- cbn [xsize]. rewrite Es. reflexivity.
        -- cbn [xval xsize]. rewrite Es. change (0 mod Z.of_nat (length [VI z])) with 0. cbn [pick_val nth_error Z.to_nat obind bin_f].
           unfold trait_arith, arith. cbn [v2z]. unfold int_res, in_int, int_min, int_max.
           replace ((- 2 ^ 31 <=? z + (1 + k)) && (z + (1 + k) <=? 2 ^ 31 - 1)) with true by (symmetry; apply andb_true_intro; split; apply Z.leb_le; lia).
           reflexivity.
        -- rewrite Ts. reflexivity.
        -- eexists _, _. split; [exact Le|]. cbn [post]. exists (z + (1 + k)). rewrite app_length. cbn [length fst].
           split; [|apply setl_same]. rewrite Nat2Z.inj_add. fold k. change (Z.of_nat 1) with 1. nia.
Qed.
End Gauss.

(** For all n below 2^16 (beyond that the sum is no int) and whatever s held. *)
Theorem c104_sum : forall lm ty lim H V s col n, In s V -> ~ In col (H ++ V) -> ty s = TInt -> 1 <= n < 65536 -> 2 * n <= lim ->
  achieves lm ty lim H V (fun _ => True) (gauss s col n) (fun q => fst q s = [VI (n * (n + 1) / 2)]) (fun _ _ => False).
Proof. intros. apply c104_sound. now apply gauss_proved. Qed.
Print Assumptions c104_sum.

Lemma plus_one lm ty lim H V u z k (s : mstate) : 2 <= lim -> In u V -> ty u = TInt -> fst s u = [VI z] -> - 2 ^ 31 <= z + k < 2 ^ 31 ->
  exists sh, lsem 0 lm ty lim H V (LAssign u (LBin OPlus (LVar u) (LLit (VI k)))) s Ended (setl (fst s) u [VI (z + k)], sh).
Proof.
  intros Bl Hu Tu Es Bz. apply (assign_one lm ty lim H V u _ (EBin OPlus (EVar u) (ESca (VI k))) (VI (z + k)) (VI (z + k)) s Bl Hu).
  - cbn [lmeans]. exists (Done (EVar u)), (Done (ESca (VI k))). split; [now split|]. split; reflexivity.
  - intros j Hj. cbn in Hj. destruct Hj as [<-|[]]. exact Hu.
  - cbn [wf_expr xsize]. rewrite Es. cbn. lia.
  - cbn [xsize]. rewrite Es. reflexivity.
  - cbn [xval xsize]. rewrite Es. change (0 mod Z.of_nat (length [VI z])) with 0. cbn [pick_val nth_error Z.to_nat obind bin_f].
    unfold trait_arith, arith. cbn [v2z]. unfold int_res, in_int, int_min, int_max.
    replace ((- 2 ^ 31 <=? z + k) && (z + k <=? 2 ^ 31 - 1)) with true by (symmetry; apply andb_true_intro; split; apply Z.leb_le; lia).
    reflexivity.
  - rewrite Tu. reflexivity.
Qed.

Section Divide.
Variables (lm : libm) (ty : nat -> ety) (lim : Z) (H V : list nat) (a b q : nat) (x y : Z).
Hypotheses (Ha : In a V) (Hb : In b V) (Hq : In q V) (Nab : a <> b) (Naq : a <> q) (Nbq : b <> q)
  (Ta : ty a = TInt) (Tb : ty b = TInt) (Tq : ty q = TInt) (Bl : 2 <= lim) (Bx : 0 <= x < 2 ^ 31) (By : 1 <= y < 2 ^ 31).

(** r is left, k times y was taken away *)
Definition remains (s : mstate) (r k : Z) : Prop :=
  fst s a = [VI r] /\ fst s b = [VI y] /\ fst s q = [VI k] /\ 0 <= r /\ 0 <= k /\ x = y * k + r.

Lemma divide_proved : proves lm ty lim H V (fun s => fst s a = [VI x] /\ fst s b = [VI y]) (divide a b q)
  (fun s => fst s a = [VI (x mod y)] /\ fst s b = [VI y] /\ fst s q = [VI (x / y)]) (fun _ _ => False).
Proof.
  unfold divide. apply (Pv_seq lm ty lim H V _ _ (fun s => exists n r k, remains s r k /\ n = Z.to_nat r)).
  - apply Pv_call; [reflexivity|]. intros s [Ea Eb]. eexists _, _. cbn [lsem]. unfold does. cbn [spec_cmd cmd_wf]. rewrite Tq. cbn [cast obind fst snd ends_as].
    split; [split; [split; [exact Hq|exact Bl]|split; reflexivity]|]. cbn [post]. exists (Z.to_nat x), x, 0. split; [|reflexivity].
    unfold remains. cbn [fst]. rewrite setl_same, !setl_other by congruence. repeat (split; [first [assumption|reflexivity|lia]|]). lia.
  - apply (Pv_while lm ty lim H V (fun n s => exists r k, remains s r k /\ n = Z.to_nat r) (fun n s => exists r k, remains s r k /\ n = Z.to_nat r /\ y <= r)).
    + intros n s [r [k [L En]]]. pose proof L as [Ea [Eb [Eq [Br [Bk E]]]]]. exists (Done (VD (v2f (VB (y <=? r))))). split.
      * exists (Done (EBin OGe (EVar a) (EVar b))). split.
        -- cbn [lmeans]. exists (Done (EVar a)), (Done (EVar b)). split; [now split|]. split; [now split|reflexivity].
        -- split.
           ++ intros e' E'. injection E' as <-. cbn [wf_expr xsize]. rewrite Ea, Eb. cbn. lia.
           ++ cbn [obind xval xsize]. rewrite Ea, Eb. cbn. reflexivity.
      * cbn [claimed]. rewrite truth_bool. destruct (Z.leb_spec y r) as [C|C]; [exists r, k; auto|].
        assert (D : k = x / y) by (apply Z.div_unique with r; lia). assert (M : r = x mod y) by (apply Z.mod_unique with k; lia).
        rewrite <- D, <- M. auto.
    + intros n. apply (Pv_seq lm ty lim H V _ _ (fun s => exists r k, fst s a = [VI r] /\ fst s b = [VI y] /\ fst s q = [VI k] /\ 0 <= r /\ 0 <= k /\
        x = y * (k + 1) + r /\ n = Z.to_nat (r + y))).
      * apply Pv_call; [reflexivity|]. intros s [r [k [[Ea [Eb [Eq [Br [Bk E]]]]] [En C]]]].
        destruct (less_one lm ty lim H V a b q Ha Hb Nab Naq Nbq Ta Bl s r y Ea Eb) as [sh Le]; [lia|nia|]. eexists _, _. split; [exact Le|]. cbn [post fst].
        exists (r - y), k. rewrite setl_same, !setl_other by congruence. repeat (split; [first [assumption|reflexivity|lia]|]). subst n. f_equal. lia.
      * apply Pv_call; [reflexivity|]. intros s [r [k [Ea [Eb [Eq [Br [Bk [E En]]]]]]]].
        destruct (plus_one lm ty lim H V q k 1 s Bl Hq Tq Eq) as [sh Le]; [nia|]. eexists _, _. split; [exact Le|]. cbn [post fst].
        exists (Z.to_nat r). split; [lia|]. exists r, (k + 1). split; [|reflexivity]. unfold remains. cbn [fst].
        rewrite setl_same, !setl_other by congruence. repeat (split; [first [assumption|reflexivity|lia]|]). exact E.
Qed.
End Divide.

(** For all ints x >= 0 and y >= 1: quotient and remainder. *)
Theorem c104_divide : forall lm ty lim H V a b q x y, In a V -> In b V -> In q V -> a <> b -> a <> q -> b <> q ->
  ty a = TInt -> ty b = TInt -> ty q = TInt -> 2 <= lim -> 0 <= x < 2 ^ 31 -> 1 <= y < 2 ^ 31 ->
  achieves lm ty lim H V (fun s => fst s a = [VI x] /\ fst s b = [VI y]) (divide a b q)
    (fun s => fst s a = [VI (x mod y)] /\ fst s b = [VI y] /\ fst s q = [VI (x / y)]) (fun _ _ => False).
Proof. intros. apply c104_sound. now apply divide_proved. Qed.
Print Assumptions c104_divide.

Lemma list_set_here {A} (a : A) l : forall k, (k < length l)%nat -> nth_error (list_set l k a) k = Some a.
Proof. induction l as [|b t IH]; intros [|k] L; cbn in *; try lia; [reflexivity|apply IH; lia]. Qed.
Lemma list_set_there {A} (a : A) l : forall k j, j <> k -> nth_error (list_set l k a) j = nth_error l j.
Proof. induction l as [|b t IH]; intros [|k] [|j] N; cbn; try reflexivity; try congruence. apply IH. congruence. Qed.

Section Checked.
Variables (lm : libm) (ty : nat -> ety) (lim : Z) (H V : list nat) (x : nat) (i v u : Z) (l : list val).
Hypotheses (Hx : In x V) (Tx : ty x = TInt) (Bl : 2 <= lim) (Bi : - 2 ^ 31 < i < 2 ^ 31) (Nl : l <> []).
Definition inside : bool := (1 <=? i) && (i <=? Z.of_nat (length l)).

Lemma checked_proved : proves lm ty lim H V (fun s => fst s x = l) (checked x i v u)
  (fun s => (inside = true /\ length (fst s x) = length l /\
             forall k, nth_error (fst s x) k = if (Z.of_nat k =? i - 1) then Some (VI v) else nth_error l k) \/
            (inside = false /\ fst s x = [VI u])) (fun _ _ => False).
Proof.
  apply (Pv_try lm ty lim H V _ _ _ _ (fun e _ => inside = false /\ e <> BadAlloc)).
  - apply Pv_call; [reflexivity|]. intros s E. cbn [lsem]. destruct inside eqn:Ins.
    + exists Ended. eexists. split.
      * exists i. split; [reflexivity|]. split; [exact Bi|]. rewrite E. split; [exact Nl|]. split; [exact Hx|]. unfold inside in Ins. rewrite Ins.
        unfold does. cbn [spec_cmd cmd_wf]. rewrite Tx, E. cbn [cast obind scatter].
        replace (i - 1 <? Z.of_nat (length l)) with true by (symmetry; apply Z.ltb_lt; lia). cbn [fst snd ends_as].
        split; [split; [exact Hx|lia]|]. split; reflexivity.
      * cbn [post fst]. left. rewrite setl_same. split; [reflexivity|]. unfold inside in Ins.
        split; [apply list_set_length|]. intros k. destruct (Z.eqb_spec (Z.of_nat k) (i - 1)) as [Ek|Nk].
        -- replace (Z.to_nat (i - 1)) with k by lia. apply list_set_here. lia.
        -- apply list_set_there. lia.
    + exists (Raised (if i <? 1 then msg_below else msg_oob)), s. split.
      * exists i. split; [reflexivity|]. split; [exact Bi|]. rewrite E. split; [exact Nl|]. split; [exact Hx|]. unfold inside in Ins. rewrite Ins.
        split; [rewrite Tx; now exists (VI v)|]. split; reflexivity.
      * cbn [post]. split; [reflexivity|]. destruct (i <? 1); discriminate.
  - intros m. apply Pv_call; [reflexivity|]. intros s [Ins _]. exists Ended. eexists. cbn [lsem]. unfold does. cbn [spec_cmd cmd_wf]. rewrite Tx.
    cbn [cast obind fst snd ends_as]. split; [split; [split; [exact Hx|exact Bl]|split; reflexivity]|]. cbn [post fst]. right. rewrite setl_same. now split.
  - intros s [_ []]. reflexivity.
Qed.
End Checked.

(** For all contents, lengths and positions: a position from 1 to the length is
    written and nothing else changes; any other one leaves the fallback. *)
Theorem c104_checked : forall lm ty lim H V x i v u l, In x V -> ty x = TInt -> 2 <= lim -> - 2 ^ 31 < i < 2 ^ 31 -> l <> [] ->
  achieves lm ty lim H V (fun s => fst s x = l) (checked x i v u)
    (fun s => (1 <= i <= Z.of_nat (length l) -> length (fst s x) = length l /\
                 forall k, nth_error (fst s x) k = if (Z.of_nat k =? i - 1) then Some (VI v) else nth_error l k) /\
              (~ 1 <= i <= Z.of_nat (length l) -> fst s x = [VI u])) (fun _ _ => False).
Proof.
  intros lm ty lim H V x i v u l Hx Tx Bl Bi Nl. apply c104_sound.
  apply (proves_post lm ty lim H V _ _ _ _ _ _ (checked_proved lm ty lim H V x i v u l Hx Tx Bl Bi Nl)); [|auto].
  intros s [[Ins C]|[Ins C]]; unfold inside in Ins; split; intros B; try assumption; exfalso.
  - apply B. lia.
  - destruct (Z.leb_spec 1 i), (Z.leb_spec i (Z.of_nat (length l))); cbn in Ins; lia || discriminate.
Qed.
Print Assumptions c104_checked.

(* --------------------------------------------------------------- examples *)

(** Three int vectors; with 48 and 36 in them the run leaves 12 in the first. *)
Definition c104_ty (x : nat) : ety := TInt.
Definition c104_s : mstate := (setl (setl (setl (fun _ => []) 0 [VI 0]) 1 [VI 0]) 2 [VI 0], fun _ => None).
Example c104_alive_ex : exists w, lalive w 1000 c104_ty [] [2; 1; 0]%nat c104_s.
Proof.
  pose proof (lalive_empty 1000 c104_ty (fun _ => [], fun _ => None) ltac:(lia)) as A0.
  destruct (lalive_sized _ _ _ _ _ 0%nat 1 A0) as [w1 A1]; [intros []|vm_compute; split; discriminate|lia|].
  destruct (lalive_sized _ _ _ _ _ 1%nat 1 A1) as [w2 A2]; [intros [X|[]]; discriminate|vm_compute; split; discriminate|lia|].
  destruct (lalive_sized _ _ _ _ _ 2%nat 1 A2) as [w3 A3]; [intros [X|[X|[]]]; discriminate|vm_compute; split; discriminate|lia|].
  exists w3. apply (lalive_ext _ _ _ _ _ _ c104_s A3). intros x [<-|[<-|[<-|[]]]]; vm_compute; auto.
Qed.
Example c104_gcd_ex : forall lm, exists w s, lalive w 1000 c104_ty [] [2; 1; 0]%nat s /\ fst s 0%nat = [VI 48] /\ fst s 1%nat = [VI 36] /\
  exists N w' s', lrun N lm (euclid 0 1 2) w = (Done true, w') /\ lalive w' 1000 c104_ty [] [2; 1; 0]%nat s' /\ fst s' 0%nat = [VI 12].
Proof.
  intros lm. destruct c104_alive_ex as [w0 A0].
  destruct (c81_programs 0 lm c104_ty 1000 [] [2; 1; 0]%nat (LSeq (LScalar 0 (VI 48)) (LScalar 1 (VI 36))) w0 c104_s Ended
    (setl (setl (fst c104_s) 0 [VI 48]) 1 [VI 36], snd c104_s) A0) as [w [_ [A _]]].
  - cbn [lsem]. eexists Ended, _. split.
    + split; [split; [right; right; now left|lia]|]. split; reflexivity.
    + cbn [after]. split; [split; [right; now left|lia]|]. split; reflexivity.
  - cbn [lreached] in A. eexists w, _. split; [exact A|]. split; [reflexivity|]. split; [reflexivity|].
    destruct (fun B1 B2 => c104_gcd lm c104_ty 1000 [] [2; 1; 0]%nat 0 1 2 48 36 ltac:(cbn; tauto) ltac:(cbn; tauto) ltac:(cbn; tauto) ltac:(discriminate)
      ltac:(discriminate) ltac:(discriminate) eq_refl eq_refl eq_refl ltac:(lia) B1 B2 w _ A (conj eq_refl eq_refl)) as [N0 [o [w' [s' [R [A' [_ O]]]]]]];
      [lia|lia|]. destruct o as [b| |]; [|destruct O|destruct O]. destruct O as [-> [O _]]. exists N0, w', s'. split; [apply R, le_n|]. now split.
Qed.

(** 1 + ... + 10 = 55 *)
Example c104_sum_ex : forall lm, exists w N w' s', lrun N lm (gauss 0 5 10) w = (Done true, w') /\
  lalive w' 1000 c104_ty [] [2; 1; 0]%nat s' /\ fst s' 0%nat = [VI 55].
Proof.
  intros lm. destruct c104_alive_ex as [w A]. exists w.
  destruct (fun B1 => c104_sum lm c104_ty 1000 [] [2; 1; 0]%nat 0 5 10 ltac:(cbn; tauto) B1 eq_refl ltac:(lia) ltac:(lia) w _ A I)
    as [N0 [o [w' [s' [R [A' [_ O]]]]]]]; [intros [X|[X|[X|[]]]]; discriminate|].
  destruct o as [b| |]; [|destruct O|destruct O]. destruct O as [-> O]. exists N0, w', s'. split; [apply R, le_n|]. now split.
Qed.

(** A vector of one element: position 1 is written, position 2 leaves the
    fallback. *)
Example c104_checked_ex : forall lm, exists w, lalive w 1000 c104_ty [] [2; 1; 0]%nat c104_s /\
  (exists N w' s', lrun N lm (checked 0 1 7 9) w = (Done true, w') /\ lalive w' 1000 c104_ty [] [2; 1; 0]%nat s' /\ fst s' 0%nat = [VI 7]) /\
  (exists N w' s', lrun N lm (checked 0 2 7 9) w = (Done true, w') /\ lalive w' 1000 c104_ty [] [2; 1; 0]%nat s' /\ fst s' 0%nat = [VI 9]).
Proof.
  intros lm. destruct c104_alive_ex as [w A]. exists w. split; [exact A|]. split.
  - destruct (c104_checked lm c104_ty 1000 [] [2; 1; 0]%nat 0 1 7 9 [VI 0] ltac:(cbn; tauto) eq_refl ltac:(lia) ltac:(lia) ltac:(discriminate) w _ A eq_refl)
      as [N0 [o [w' [s' [R [A' [_ O]]]]]]]. destruct o as [b| |]; [|destruct O|destruct O]. destruct O as [-> [O _]].
    exists N0, w', s'. split; [apply R, le_n|]. split; [exact A'|]. destruct O as [L O]; [cbn; lia|].
    pose proof (O 0%nat) as O0. destruct (fst s' 0%nat) as [|a [|b t]]; cbn in L; try discriminate. cbn in O0. now injection O0 as ->.
  - destruct (c104_checked lm c104_ty 1000 [] [2; 1; 0]%nat 0 2 7 9 [VI 0] ltac:(cbn; tauto) eq_refl ltac:(lia) ltac:(lia) ltac:(discriminate) w _ A eq_refl)
      as [N0 [o [w' [s' [R [A' [_ O]]]]]]]. destruct o as [b| |]; [|destruct O|destruct O]. destruct O as [-> [_ O]].
    exists N0, w', s'. split; [apply R, le_n|]. split; [exact A'|]. apply O. cbn. lia.
Qed.

(** The claims of c104_gcd and c104_gcd_only are about vectors in scope, so they
    may be joined with others. *)
Example c104_both_ex : about [2; 1; 0]%nat (fun s => fst s 0%nat = [VI 12] /\ fst s 1%nat = [VI 0]).
Proof.
  intros s t U [E1 E2]. destruct (U 0%nat) as [U0 _]; [cbn; tauto|]. destruct (U 1%nat) as [U1 _]; [cbn; tauto|].
  split; [exact (eq_trans U0 E1)|exact (eq_trans U1 E2)].
Qed.
(** A fact about another vector can be added to Euclid's algorithm. *)
Example c104_frame_ex : touches [0; 1; 2]%nat [0; 1; 2]%nat (euclid 0 1 2) /\ apart_from [0; 1; 2]%nat (fun s => fst s 3%nat = [VD fone]).
Proof.
  split; [unfold euclid; cbn [touches lvars app]; unfold incl; cbn; intuition (subst; auto)|].
  intros s t U E. destruct (U 3%nat) as [U3 _]; [intros [X|[X|[X|[]]]]; discriminate|]. exact (eq_trans U3 E).
Qed.

(** 48 = 36 * 1 + 12 *)
Example c104_divide_ex : forall lm, exists w s, lalive w 1000 c104_ty [] [2; 1; 0]%nat s /\ fst s 0%nat = [VI 48] /\ fst s 1%nat = [VI 36] /\
  exists N w' s', lrun N lm (divide 0 1 2) w = (Done true, w') /\ lalive w' 1000 c104_ty [] [2; 1; 0]%nat s' /\
    fst s' 0%nat = [VI 12] /\ fst s' 2%nat = [VI 1].
Proof.
  intros lm. destruct (c104_gcd_ex lm) as [w [s [A [E0 [E1 _]]]]]. exists w, s. split; [exact A|]. split; [exact E0|]. split; [exact E1|].
  destruct (fun B1 B2 => c104_divide lm c104_ty 1000 [] [2; 1; 0]%nat 0 1 2 48 36 ltac:(cbn; tauto) ltac:(cbn; tauto) ltac:(cbn; tauto) ltac:(discriminate)
    ltac:(discriminate) ltac:(discriminate) eq_refl eq_refl eq_refl ltac:(lia) B1 B2 w _ A (conj E0 E1)) as [N0 [o [w' [s' [R [A' [_ O]]]]]]];
    [lia|lia|]. destruct o as [b| |]; [|destruct O|destruct O]. destruct O as [-> [O [_ O2]]]. exists N0, w', s'. split; [apply R, le_n|].
  split; [exact A'|]. now split.
Qed.
