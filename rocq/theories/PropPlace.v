(** Property C101: where memory is does not matter. *)
From Coq Require Import ZArith List String Bool Lia FunctionalExtensionality.
From Verif Require Import Base Num StoreModel VecModel SubsetModel AllocModel ProgModel LangModel OutModel ForeignModel CallModel JumpModel WrapCallModel
  AvModel DerivModel TryModel Spec SpecCall SpecJump SpecPlace PlaceProofs PlaceDeriv Examples PropVec PropDeriv PropCall PropDerivSafe PropJump PropTry.
Import ListNotations.
Open Scope Z_scope.
Local Notation length := List.length (only parsing).

Lemma to_rel pi w w' : placed pi w w' -> rel pi (hnext (hp w)) (hnext (hp w')) (hblk (hp w')) w w'.
Proof.
  intros [P1 P2 P3 P4 P5]. constructor; auto.
  - now apply functional_extensionality.
  - exists 0%nat. lia.
Qed.
Lemma of_rel pi w w' w1 w1' : placed pi w w' -> rel pi (hnext (hp w)) (hnext (hp w')) (hblk (hp w')) w1 w1' ->
  placed pi w1 w1' /\ other_kept pi w' w1'.
Proof.
  intros [P1 P2 P3 P4 P5] [R1 R2 [k [E E']] R4 R5]. split; [|exact R5]. constructor; auto.
  - intros j. rewrite E, E', <- !Nat.add_assoc. apply P2.
  - intros o. now rewrite R1.
Qed.
Lemma use {A} (r : A -> A) (m m' : M world A) pi w w' : placed pi w w' ->
  (agree pi (hnext (hp w)) (hnext (hp w')) (hblk (hp w')) r m m') ->
  same_end r (fst (m w)) (fst (m' w')) /\ placed pi (snd (m w)) (snd (m' w')) /\ other_kept pi w' (snd (m' w')).
Proof. intros P H. destruct (H w w' (to_rel _ _ _ P)) as [E R]. split; [exact E|]. now apply (of_rel pi w w'). Qed.

(** A program that finds the same vectors in other places ends in the same way,
    also in the same undefined behaviour, and leaves the same vectors; it does
    not touch what else there is in memory. *)
Theorem c101_program : forall pi N lm p w w', placed pi w w' ->
  fst (lrun N lm p w') = fst (lrun N lm p w) /\
  placed pi (snd (lrun N lm p w)) (snd (lrun N lm p w')) /\ other_kept pi w' (snd (lrun N lm p w')).
Proof.
  intros pi N lm p w w' P. pose proof P as [P1 P2 _ _ _].
  destruct (use (fun x => x) (lrun N lm p) (lrun N lm p) pi w w' P (mv_lrun pi _ _ _ P1 P2 N lm p)) as [E R]. split; [|exact R].
  destruct (fst (lrun N lm p w)), (fst (lrun N lm p w')); cbn in E; try contradiction; congruence.
Qed.
Print Assumptions c101_program.

(** A function called from R with objects that hold the same in other places
    gives back an object that holds the same in the place that corresponds. *)
Theorem c101_call : forall pi N lm ps b w w', placed pi w w' ->
  let r := wcall N lm ps b w in let r' := wcall N lm (map (ren_wparam pi) ps) b w' in
  same_end (ren_flow pi) (fst r) (fst r') /\ placed pi (snd r) (snd r') /\ other_kept pi w' (snd r').
Proof. intros pi N lm ps b w w' P. pose proof P as [P1 P2 _ _ _]. apply use; [exact P|]. now apply mv_wcall. Qed.
Print Assumptions c101_call.
Theorem c101_function : forall pi N lm ps b w w', placed pi w w' ->
  let r := call N lm ps b w in let r' := call N lm (map (ren_param pi) ps) b w' in
  same_end (option_map (ren_obj pi)) (fst r) (fst r') /\ placed pi (snd r) (snd r') /\ other_kept pi w' (snd r').
Proof. intros pi N lm ps b w w' P. pose proof P as [P1 P2 _ _ _]. apply use; [exact P|]. now apply mv_call. Qed.
Print Assumptions c101_function.

(** What R sees of the result: its type, its dimensions and its elements are
    those of the call in the other world. *)
Theorem c101_result : forall pi N lm ps b w w' o w1, placed pi w w' -> wcall N lm ps b w = (Done (Gave o), w1) ->
  exists o' w1', wcall N lm (map (ren_wparam pi) ps) b w' = (Done (Gave o'), w1') /\ r_ty o' = r_ty o /\ r_dim o' = r_dim o /\
    hblk (hp w1') (r_mem o') = hblk (hp w1) (r_mem o).
Proof.
  intros pi N lm ps b w w' o w1 P E. destruct (c101_call pi N lm ps b w w' P) as [Q [R _]]. rewrite E in Q, R. cbn [fst snd] in Q, R.
  destruct (wcall N lm (map (ren_wparam pi) ps) b w') as [[f|e|u] w1']; cbn [fst snd same_end] in Q, R; try contradiction. subst f.
  exists (ren_obj pi o), w1'. repeat split. apply (pl_blk _ _ _ R).
Qed.
Print Assumptions c101_result.

(** Derivative programs, with and without handlers of exceptions, and the
    derivatives asked for after them. *)
Definition dplaced (pi : nat -> nat) (d d' : dworld) : Prop := placed pi (dw d) (dw d') /\ dinit d' = dinit d.
Lemma duse {A} (m : M dworld A) pi d d' : dplaced pi d d' ->
  (dagree pi (hnext (hp (dw d))) (hnext (hp (dw d'))) (hblk (hp (dw d'))) (fun x => x) m m) ->
  fst (m d') = fst (m d) /\ dplaced pi (snd (m d)) (snd (m d')) /\ other_kept pi (dw d') (dw (snd (m d'))).
Proof.
  intros [P Q] H. destruct (H d d' (to_rel _ _ _ P) Q) as [E [R Q1]]. destruct (of_rel _ _ _ _ _ P R) as [P1 K].
  split; [|split; [split; assumption|exact K]]. destruct (fst (m d)), (fst (m d')); cbn in E; try contradiction; congruence.
Qed.
Theorem c101_derivatives : forall pi lm c p d d', dplaced pi d d' ->
  fst (prun lm c p d') = fst (prun lm c p d) /\ dplaced pi (snd (prun lm c p d)) (snd (prun lm c p d')) /\
  other_kept pi (dw d') (dw (snd (prun lm c p d'))).
Proof. intros pi lm c p d d' P. pose proof P as [[P1 P2 _ _ _] _]. apply duse; [exact P|]. now apply dmv_prun. Qed.
Print Assumptions c101_derivatives.
Theorem c101_asked : forall pi lm c p x d d', dplaced pi d d' ->
  fst (get_derivs c x (snd (prun lm c p d'))) = fst (get_derivs c x (snd (prun lm c p d))) /\
  fst (get_vals x (snd (prun lm c p d'))) = fst (get_vals x (snd (prun lm c p d))).
Proof.
  intros pi lm c p x d d' P. destruct (c101_derivatives pi lm c p d d' P) as [_ [P' _]]. pose proof P' as [[P1 P2 _ _ _] _].
  split; apply (duse _ pi _ _ P'); [now apply dmv_derivs|now apply dmv_vals].
Qed.
Print Assumptions c101_asked.

(** Another place for everything: the blocks there are in reverse order and
    behind two blocks of others, and five addresses have been used in between. *)
Definition ex101_pi (N a : nat) : nat := if (a <? N)%nat then (N + 1 - a)%nat else (a + 7)%nat.
Definition ex101_at (N a : nat) : option nat :=
  if (2 <=? a)%nat && (a <? N + 2)%nat then Some (N + 1 - a)%nat else if (N + 7 <=? a)%nat then Some (a - 7)%nat else None.
Definition ex101_moved (w : world) : world :=
  let N := hnext (hp w) in
  mkWorld (mkHeap (N + 7) (fun a => match ex101_at N a with Some b => hblk (hp w) b | None => if (a <? 2)%nat then Live OwnExt [Some (VD fone)] else Freed end) (hlim (hp w)))
    (fun o => ren (ex101_pi N) (ob w o)).
Lemma ex101_placed w : placed (ex101_pi (hnext (hp w))) w (ex101_moved w).
Proof.
  constructor.
  - intros a b. unfold ex101_pi. destruct (Nat.ltb_spec a (hnext (hp w))), (Nat.ltb_spec b (hnext (hp w))); lia.
  - intros k. unfold ex101_pi, ex101_moved. cbn [hp hnext]. destruct (Nat.ltb_spec (hnext (hp w) + k) (hnext (hp w))); lia.
  - reflexivity.
  - intros a. unfold ex101_moved. cbn [hp hblk]. replace (ex101_at (hnext (hp w)) (ex101_pi (hnext (hp w)) a)) with (Some a); [reflexivity|].
    unfold ex101_at, ex101_pi. destruct (Nat.ltb_spec a (hnext (hp w))).
    + destruct (Nat.leb_spec 2 (hnext (hp w) + 1 - a)); [|lia]. destruct (Nat.ltb_spec (hnext (hp w) + 1 - a) (hnext (hp w) + 2)); [|lia].
      cbn [andb]. f_equal. lia.
    + destruct (Nat.ltb_spec (a + 7) (hnext (hp w) + 2)); [lia|]. rewrite andb_false_r.
      destruct (Nat.leb_spec (hnext (hp w) + 7) (a + 7)); [|lia]. f_equal. lia.
  - reflexivity.
Qed.
(** The call of C91 in a fresh process and in one with other memory: the same
    elements, in another place. *)
Definition ex101_ps : list wparam := [mkW ByCopy (mkP 0 TDouble (mkR TDouble 0 (Some (2, 3)))); mkW ByWrap (mkP 5 TDouble (mkR TDouble 0 None))].
Example c101_ex : placed (ex101_pi 3) c83_w (ex101_moved c83_w) /\ hblk (hp (ex101_moved c83_w)) 4 = c83_blk 0 /\
  map (ren_wparam (ex101_pi 3)) ex101_ps = [mkW ByCopy (mkP 0 TDouble (mkR TDouble 4 (Some (2, 3)))); mkW ByWrap (mkP 5 TDouble (mkR TDouble 4 None))] /\
  exists o o', fst (wcall 2 ex_lm ex101_ps nest_fn c83_w) = Done (Gave o) /\
    fst (wcall 2 ex_lm (map (ren_wparam (ex101_pi 3)) ex101_ps) nest_fn (ex101_moved c83_w)) = Done (Gave o') /\ r_mem o <> r_mem o' /\
    hblk (hp (snd (wcall 2 ex_lm ex101_ps nest_fn c83_w))) (r_mem o) =
    hblk (hp (snd (wcall 2 ex_lm (map (ren_wparam (ex101_pi 3)) ex101_ps) nest_fn (ex101_moved c83_w)))) (r_mem o').
Proof.
  split; [exact (ex101_placed c83_w)|]. split; [reflexivity|]. split; [reflexivity|].
  eexists. eexists. split; [vm_compute; reflexivity|]. split; [vm_compute; reflexivity|]. split; [vm_compute; discriminate|vm_compute; reflexivity].
Qed.
Example c101_derivatives_ex : dplaced (ex101_pi (hnext (hp (dw ex43_d)))) ex43_d (mkDw (ex101_moved (dw ex43_d)) (dinit ex43_d)) /\
  fst (drun ex_lm ex43_c ex97_p (mkDw (ex101_moved (dw ex43_d)) (dinit ex43_d))) = Done tt.
Proof. split; [split; [apply ex101_placed|reflexivity]|vm_compute; reflexivity]. Qed.
