(** Property C100: derivative programs go on after an exception was caught. *)
From Coq Require Import String ZArith List Bool Lia Arith.
From Verif Require Import Base Num StoreModel VecModel DerivModel FloatBridge Spec StoreProofs SpecDeriv SpecDerivSafe
  SpecVec TryModel SpecTry DerivProofs DerivProofs3 DerivSafe DerivCatch VecThms Examples PropVec PropDeriv PropDerivSafe.
Import ListNotations.
Open Scope Z_scope.
Local Notation length := List.length (only parsing).

Lemma begun_plain ins d : begun ins d -> plain d.
Proof.
  intros B k. rewrite (bg_rest _ _ B); [reflexivity|]. intros x _. apply kslot_not_v.
Qed.
Lemma begun_sized ins d : begun ins d -> sized (given ins) d.
Proof.
  intros B y [v [vs Ey]]. destruct (bg_input _ _ B y _ Ey) as [_ [_ [Sz _]]]. rewrite Sz. cbn. lia.
Qed.
Lemma prun_inv lm c ins d p r d' : begun ins d -> p_assigns c p -> p_known (given ins) p -> prun lm c p d = (r, d') ->
  safe d False (r, d') (fun _ d' => inv d d' /\ sized (fun y => given ins y \/ p_sets p y) d') /\
  esc (r, d') (fun d' => inv d d' /\ sized (given ins) d').
Proof.
  intros B As Kn E. rewrite <- E. apply prun_safe; [exact As|exact Kn|now apply begun_sized|now apply (begun_inv ins)|now apply (begun_plain ins)].
Qed.

(** Statements in any number and nesting of try blocks, exceptions caught or
    not, whatever the operators, the lengths and the amount of memory: if the
    variables that are read have elements, the program is defined, the inputs
    are untouched, no block is lost, and whenever it stops (its end or an
    exception of the library) all storage objects are sound and hold only
    doubles that were written. *)
Theorem c100_safe : forall lm c ins d p r d', begun ins d -> p_assigns c p -> p_known (given ins) p ->
  prun lm c p d = (r, d') ->
  (forall u, r <> Undef u) /\ ended ins d d' r /\ (r <> Thrown BadAlloc -> doubles (dw d')) /\
  (r = Done tt -> forall x, p_sets p x -> exists v vs, holds (dw d') (OD (vslot x)) (map VD (v :: vs))).
Proof.
  intros lm c ins d p r d' B As Kn E. destruct (prun_inv lm c ins d p r d' B As Kn E) as [Sf Es].
  split; [intros u ->; apply Sf|]. split.
  { apply (safe_ended d False ins r d' _ B Sf). intros ->. apply Sf. }
  split.
  - intros Nb. destruct r as [[]|[m|]|u]; cbn [safe esc] in *; [| |congruence|tauto]; intros o; eapply full_list; [apply Sf|apply Es].
  - intros -> x Sx. destruct Sf as [Iv Hs]. specialize (Hs x (or_intror Sx)).
    destruct (full_list _ _ (OD (vslot x)) Iv) as [l Hl]. destruct l as [|v vs]; [|exists v, vs; exact Hl].
    exfalso. pose proof (proj1 Hl) as Q. cbn in Q. lia.
Qed.
Print Assumptions c100_safe.

(** Also after an exception that left the program get() returns doubles for
    every variable and get_derivs() is defined. *)
Theorem c100_ask : forall lm c ins d p r d', begun ins d -> p_assigns c p -> p_known (given ins) p ->
  prun lm c p d = (r, d') -> r <> Thrown BadAlloc -> forall x, exists vs,
  get_vals x d' = (Done (map VD vs), d') /\
  match fst (get_derivs c x d') with
  | Done ds => length ds = length vs
  | Thrown _ => True
  | Undef _ => False
  end.
Proof.
  intros lm c ins d p r d' B As Kn E Nb x. destruct (prun_inv lm c ins d p r d' B As Kn E) as [Sf Es].
  assert (Iv : inv d d') by (destruct r as [[]|[m|]|u]; cbn [safe esc] in *; tauto).
  destruct (full_list _ _ (OD (vslot x)) Iv) as [vs Hv]. exists vs. split.
  - unfold get_vals, inw. rewrite (iterate_vec_holds _ _ _ (ba_shape _ _ (in_base _ _ Iv)) Hv). now destruct d'.
  - pose proof (get_derivs_safe d c x d' Iv) as G. pose proof (proj1 Hv) as Sz. rewrite map_length in Sz.
    destruct (get_derivs c x d') as [[ds|[m|]|u] d2]; cbn [safe fst] in *; auto; [|tauto]. destruct G as [_ G]. lia.
Qed.
Print Assumptions c100_ask.

(** A failing statement leaves the values of all variables, its target
    included, as they were.  It fails for one of two reasons: a constant without
    elements, or a target that is on its own right-hand side and shorter than
    another operand. *)
Theorem c100_fails : forall lm c ins d p d1 x e m d2, begun ins d -> p_assigns c p -> p_known (given ins) p ->
  prun lm c p d = (Done tt, d1) -> assigns c (DAssign x e) ->
  (forall y, In y (dvars e) -> given ins y \/ p_sets p y) ->
  dexec lm c (DAssign x e) d1 = (Thrown (Ass m), d2) ->
  (forall y, exists vs, get_vals y d1 = (Done vs, d1) /\ get_vals y d2 = (Done vs, d2)) /\
  ((exists k, In (k, []) (dcons e)) \/
   (In x (dvars e) /\ exists vs, get_vals x d1 = (Done vs, d1) /\
     ((exists y us, In y (dvars e) /\ get_vals y d1 = (Done us, d1) /\ (length vs < length us)%nat) \/
      (exists k l, In (k, l) (dcons e) /\ (length vs < length l)%nat)))).
Proof.
  intros lm c ins d p d1 x e m d2 B As Kn E Ax Rd Ex. destruct (prun_inv lm c ins d p _ d1 B As Kn E) as [[Iv Sz] _].
  assert (Pl : plain d1) by (eapply plain_keep; [apply kk_prun|exact E|now apply (begun_plain ins)]).
  pose proof (dexec_esc d lm c (DAssign x e) d1 Ax Iv Pl) as F. rewrite Ex in F.
  destruct F as [I2 V2 Ca]. { intros y Iy. apply Sz. now apply Rd. }
  assert (G : forall y, exists vs, holds (dw d1) (OD (vslot y)) (map VD vs) /\
    get_vals y d1 = (Done (map VD vs), d1) /\ get_vals y d2 = (Done (map VD vs), d2)).
  { intros y. destruct (full_list _ _ (OD (vslot y)) Iv) as [vs Hv]. exists vs. split; [exact Hv|].
    assert (Hv2 : holds (dw d2) (OD (vslot y)) (map VD vs)) by (eapply holds_same; [apply V2|exact Hv]).
    unfold get_vals, inw. rewrite (iterate_vec_holds _ _ _ (ba_shape _ _ (in_base _ _ Iv)) Hv).
    rewrite (iterate_vec_holds _ _ _ (ba_shape _ _ (in_base _ _ I2)) Hv2). now destruct d1, d2. }
  split; [intros y; destruct (G y) as [vs [_ H]]; eauto|].
  destruct Ca as [Ca|[Ix Ca]]; [now left|]. right. split; [exact Ix|].
  destruct (G x) as [vs [Hx [Gx _]]]. exists (map VD vs). split; [exact Gx|]. pose proof (proj1 Hx) as Sx.
  destruct Ca as [[y [Iy Ly]]|[k [l [Ik Lk]]]].
  - left. destruct (G y) as [us [Hy [Gy _]]]. exists y, (map VD us). split; [exact Iy|]. split; [exact Gy|].
    pose proof (proj1 Hy) as Sy. lia.
  - right. exists k, l. split; [exact Ik|]. lia.
Qed.
Print Assumptions c100_fails.

(** Programs whose targets are not on their own right-hand sides and whose
    constants have elements end, unless memory runs out. *)
Theorem c100_ends : forall lm c ins d p r d', begun ins d -> Forall (assigns c) p -> reads_known (given ins) p ->
  Forall (fun s => match s with DAssign x e => ~ In x (dvars e) /\ forall k l, In (k, l) (dcons e) -> l <> [] end) p ->
  drun lm c p d = (r, d') -> r = Done tt \/ r = Thrown BadAlloc.
Proof.
  intros lm c ins d p r d' B As Kn Fr E.
  assert (Q : forall p V d1 r d', Forall (assigns c) p -> reads_known V p -> sized V d1 -> inv d d1 -> plain d1 ->
    Forall (fun s => match s with DAssign x e => ~ In x (dvars e) /\ forall k l, In (k, l) (dcons e) -> l <> [] end) p ->
    drun lm c p d1 = (r, d') -> r = Done tt \/ r = Thrown BadAlloc).
  { clear p r d' As Kn Fr E. induction p as [|s p IH]; intros V d1 r d' As Kn Vd Iv Pl Fr E; cbn [drun] in E.
    - injection E as <- _. now left.
    - inversion As as [|? ? A1 A2]; subst. inversion Fr as [|? ? F1 F2]; subst.
      destruct s as [x e]. destruct Kn as [K1 K2].
      assert (Hz : forall y, In y (dvars e) -> 1 <= sz (ob (dw d1) (OD (vslot y)))) by (intros y Iy; apply Vd; now apply K1).
      pose proof (dexec_safe d False lm c (DAssign x e) d1 A1 Iv (fun y Iy => or_intror (Hz y Iy))) as Sf.
      pose proof (dexec_esc d lm c (DAssign x e) d1 A1 Iv Pl Hz) as Es.
      pose proof (plain_keep (dexec lm c (DAssign x e)) d1) as Pk.
      unfold bind in E. destruct (dexec lm c (DAssign x e) d1) as [[[]|[m|]|u] d2]; cbn [safe esc] in *.
      + destruct Sf as [I2 V2 S2]. apply (IH (fun y => y = x \/ V y) d2 r d'); auto.
        * intros y Hy. destruct (dvar_dec y x) as [->|Ny]; [exact S2|]. rewrite V2 by exact Ny. destruct Hy as [Hy|Hy]; [contradiction|now apply Vd].
        * eapply Pk; [apply kk_dexec|reflexivity|exact Pl].
      + exfalso. destruct (fa_cause _ _ _ _ Es) as [[k Ik]|[Ix _]]; [|now apply F1]. destruct F1 as [_ F1]. now apply (F1 k []).
      + right. now injection E as <- _.
      + tauto. }
  apply (Q p (given ins) d r d'); auto; [now apply begun_sized|now apply (begun_inv ins)|now apply (begun_plain ins)].
Qed.
Print Assumptions c100_ends.

(** Without handlers these are the programs of C97. *)
Theorem c100_plain : forall lm c p d, prun lm c (p_list p) d = drun lm c p d.
Proof.
  intros lm c p. induction p as [|s p IH]; intros d; cbn [p_list prun drun]; [reflexivity|].
  unfold bind. destruct (dexec lm c s d) as [[[]|x|u] d1]; auto.
Qed.
Print Assumptions c100_plain.

(** What a program does is what the rules of SpecTry say, and nothing else. *)
Theorem c100_meaning : forall lm c p d r d', prun lm c p d = (r, d') <-> goes lm c p d r d'.
Proof.
  intros lm c p d r d'. split.
  - revert d r d'. induction p as [|s|a IHa b IHb|a IHa b IHb]; intros d r d' E; cbn [prun] in E.
    + injection E as <- <-. constructor.
    + now constructor.
    + unfold bind in E. destruct (prun lm c a d) as [[[]|x|u] d1] eqn:Ea; apply IHa in Ea.
      * eapply goes_seq; [exact Ea|now apply IHb].
      * injection E as <- <-. apply goes_out; [exact Ea|discriminate].
      * injection E as <- <-. apply goes_out; [exact Ea|discriminate].
    + destruct (prun lm c a d) as [[[]|[m|]|u] d1] eqn:Ea; apply IHa in Ea;
        try (injection E as <- <-; apply goes_try; [exact Ea|discriminate]).
      eapply goes_catch; [exact Ea|now apply IHb].
  - intros G. induction G as [d|s d r d' E|a b d d1 r d2 Ga IHa Gb IHb|a b d r d1 Ga IHa Nr
        |a b d r d1 Ga IHa Nr|a b d m d1 r d2 Ga IHa Gb IHb]; cbn [prun].
    + reflexivity.
    + exact E.
    + unfold bind. now rewrite IHa.
    + unfold bind. rewrite IHa. destruct r as [[]|x|u]; congruence.
    + rewrite IHa. destruct r as [[]|[m|]|u]; try reflexivity. now destruct (Nr m).
    + now rewrite IHa.
Qed.
Print Assumptions c100_meaning.

(** The derivatives of the target are not kept: those computed before the
    exception have replaced the old ones, next to the old values. *)
Definition c100_p : dprog := PDo (DAssign (bv 0) (DCon true 0 (nums [1; 2; 3]))).
Definition c100_s : dstmt := DAssign (bv 0) (DTimes (DVar (bv 0)) (DCon true 1 (nums [2; 2; 2; 2]))).
Theorem c100_derivs_refuted : forall lm, exists c ins d p d1 s m d2 ds, begun ins d /\ p_assigns c p /\ assigns c s /\
  prun lm c p d = (Done tt, d1) /\ dexec lm c s d1 = (Thrown (Ass m), d2) /\
  fst (get_derivs c (target s) d1) = Done ds /\ fst (get_derivs c (target s) d2) <> Done ds.
Proof.
  intros lm. exists ex43_c, ex43_ins, ex43_d, c100_p. eexists _, c100_s, _, _, _.
  split; [apply ex97_begun|].
  split. { cbn [p_assigns c100_p assigns]. cbn. repeat split; try lia; try discriminate. intros k l [H|[]]. injection H as <- <-. cbn. lia. }
  split. { cbn [c100_s assigns]. cbn. repeat split; try lia; try discriminate. intros k l [H|[]]. injection H as <- <-. cbn. lia. }
  split. { apply pair_eta; [vm_compute; reflexivity|reflexivity]. }
  split. { apply pair_eta; [vm_compute; reflexivity|reflexivity]. }
  split; [vm_compute; reflexivity|]. vm_compute. discriminate.
Qed.
Print Assumptions c100_derivs_refuted.

(** A handler that also catches std::bad_alloc cannot go on: a failed resize has
    deleted the memory and stored the new capacity (Core/BaseStore.hpp 265-277),
    so the next use of the vector writes into deleted memory. *)
Definition c100_little : list dstmt :=
  [DAssign (bv 0) (DCon true 0 (nums [1; 2])); DAssign (bv 0) (DCon true 0 (nums [1; 2; 3; 4; 5]))].
Theorem c100_memory_refuted : forall lm, exists c ins d p d1 s, begun ins d /\ Forall (assigns c) p /\ assigns c s /\
  reads_known (given ins) p /\ reads_known (given ins) [s] /\
  drun lm c p d = (Thrown BadAlloc, d1) /\ fst (dexec lm c s d1) = Undef UB_freed.
Proof.
  intros lm. exists ex43_c, none, (dstart 4), c100_little. eexists. exists (DAssign (bv 1) (DCon true 0 (nums [1; 2]))).
  split. { apply (started_begun ex43_c). unfold none. apply start_empty. lia. }
  split. { unfold c100_little. repeat constructor; cbn; try discriminate; try lia;
      intros k l H; repeat (destruct H as [H|H]); try contradiction; injection H as <- <-; cbn; lia. }
  split. { cbn. repeat split; try lia; try discriminate. intros k l [H|[]]. injection H as <- <-. cbn. lia. }
  split. { cbn. repeat split; intros y []. }
  split. { cbn. repeat split; intros y []. }
  split. { apply pair_eta; [vm_compute; reflexivity|reflexivity]. }
  vm_compute. reflexivity.
Qed.
Print Assumptions c100_memory_refuted.

(** The failing statement caught twice over, the handler reading the target. *)
Definition ex100_p : dprog :=
  PSeq c100_p
    (PSeq (PTry (PSeq (PTry (PDo c100_s) (PDo (DAssign (bv 1) (DPlus (DVar (bv 0)) (DVar (ev 0))))))
                      (PDo (DAssign (bv 1) (DTimes (DVar (bv 0)) (DCon true 2 [])))))
                (PDo (DAssign (bv 1) (DVar (bv 0)))))
          (PDo (DAssign (bv 0) (DSin (DVar (bv 1)))))).
Example c100_ex : begun ex43_ins ex43_d /\ p_assigns ex43_c ex100_p /\ p_known (given ex43_ins) ex100_p /\
  p_sets ex100_p (bv 0) /\ p_sets ex100_p (bv 1) /\
  fst (prun ex_lm ex43_c ex100_p ex43_d) = Done tt /\
  fst (bind (prun ex_lm ex43_c ex100_p) (fun _ => get_vals (bv 1)) ex43_d) = Done (map VD (nums [1; 2; 3])) /\
  fst (bind (prun ex_lm ex43_c ex100_p) (fun _ => get_derivs ex43_c (bv 1)) ex43_d) = Done (map VD (nums [2; 2; 2])).
Proof.
  assert (G0 : given ex43_ins (ev 0)) by (exists (i2f 1), (nums [2; 3]); vm_compute; reflexivity).
  split; [apply ex97_begun|].
  split. { cbn. repeat split; try lia; try discriminate; intros k l H; repeat (destruct H as [H|H]); try contradiction; injection H as <- <-; cbn; lia. }
  split. { cbn. repeat split; intros y H; repeat (destruct H as [<-|H]); try contradiction; auto 8. }
  split; [cbn; auto 8|]. split; [cbn; auto 8|].
  split; [vm_compute; reflexivity|]. split; vm_compute; reflexivity.
Qed.
(** The hypotheses of c100_ends. *)
Example c100_ends_ex : Forall (assigns ex43_c) (firstn 2 ex97_p) /\ reads_known (given ex43_ins) (firstn 2 ex97_p) /\
  Forall (fun s => match s with DAssign x e => ~ In x (dvars e) /\ forall k l, In (k, l) (dcons e) -> l <> [] end) (firstn 2 ex97_p) /\
  fst (drun ex_lm ex43_c (firstn 2 ex97_p) ex43_d) = Done tt.
Proof.
  assert (G0 : given ex43_ins (ev 0)) by (exists (i2f 1), (nums [2; 3]); vm_compute; reflexivity).
  assert (G1 : given ex43_ins (rv 1)) by (exists (i2f 4), (nums [5; 6]); vm_compute; reflexivity).
  split.
  { cbn [firstn ex97_p]. repeat constructor; cbn; try discriminate; try lia;
      intros k l H; repeat (destruct H as [H|H]); try contradiction; injection H as <- <-; cbn; lia. }
  split. { cbn [firstn ex97_p reads_known dvars]. repeat split; intros y H; cbn in H; repeat (destruct H as [<-|H]); try contradiction; auto 8. }
  split.
  { cbn [firstn ex97_p]. constructor; [|constructor; [|constructor]]; (split;
      [cbn; intros H; repeat (destruct H as [H|H]); try discriminate; contradiction
      |intros k l H; cbn in H; repeat (destruct H as [H|H]); try contradiction; injection H as <- <-; discriminate]). }
  vm_compute; reflexivity.
Qed.
