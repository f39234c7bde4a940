(** Property C56: the bubble sort example. *)
From Coq Require Import String ZArith List Bool Lia Permutation.
From Flocq Require Import Core.
From Verif Require Import Base Num StoreModel VecModel SubsetModel AllocModel BubbleModel FloatBridge Spec SpecExpr SpecHist
  SpecBubble StoreProofs StoreHist BubbleProofs BubbleProofs2 Examples PropVec.
Import ListNotations.
Open Scope Z_scope.
Local Notation length := List.length (only parsing).

(** Claim: after bs(arr) the vector arr has its old elements in ascending
    order.  It holds for the vectors of two or more elements that are in order
    already, and for those which a single exchange of neighbours puts in order;
    for every other vector it is false. *)

(** A vector in order stays as it is; one round of the loop is enough. *)
Theorem c56_sorted_partial : forall lm w arr size temp swapped col s l fuel,
  sort_call w arr size temp swapped col s l -> (2 <= length l)%nat -> ascending l -> (1 <= fuel)%nat ->
  exists w', bs lm arr size temp swapped col s fuel w = (Done true, w') /\ sort_end w w' arr size temp swapped col s /\
    owning w' arr /\ vholds w' arr (map VD l).
Proof.
  intros lm w arr size temp swapped col s l fuel [ND [WO [OA [HA [TA [G1 [G2 [G3 [G4 [U [Ft N]]]]]]]]]]] L A F.
  destruct (bs_rounds lm arr size temp swapped col s ND w l fuel) as [w' [Fr [E1 [E2 [E3 R]]]]]; auto.
  { unfold bs_pre, fits in *. repeat (split; [assumption|]). lia. }
  destruct fuel as [|k]; [lia|]. rewrite (rounds_asc k l false A) in R. destruct R as [R [O [H _]]].
  exists w'. split; [exact R|]. split; [split; auto|auto].
Qed.
Print Assumptions c56_sorted_partial.

(** One exchange of neighbours: two rounds. *)
Theorem c56_one_exchange_partial : forall lm w arr size temp swapped col s l l' fuel,
  sort_call w arr size temp swapped col s l -> Forall valid l -> one_exchange l l' -> ascending l' -> (2 <= fuel)%nat ->
  exists w', bs lm arr size temp swapped col s fuel w = (Done true, w') /\ sort_end w w' arr size temp swapped col s /\
    owning w' arr /\ vholds w' arr (map VD l') /\ Permutation l l'.
Proof.
  intros lm w arr size temp swapped col s l l' fuel [ND [WO [OA [HA [TA [G1 [G2 [G3 [G4 [U [Ft N]]]]]]]]]]] V X A F.
  destruct X as [p [a [b [q [-> [D ->]]]]]].
  destruct (bs_rounds lm arr size temp swapped col s ND w (p ++ a :: b :: q) fuel) as [w' [Fr [E1 [E2 [E3 R]]]]]; auto.
  { unfold bs_pre, fits in *. repeat (split; [assumption|]). lia. }
  { rewrite app_length. simpl. lia. }
  destruct fuel as [|[|k]]; [lia|lia|].
  rewrite (rounds_swap k p a b q (exchange_first p a b q V D A) D) in R.
  destruct (ascending_dec (p ++ b :: a :: q)) as [_|C]; [|contradiction].
  destruct R as [R [O [H _]]]. exists w'. split; [exact R|]. split; [split; auto|]. split; [exact O|]. split; [exact H|].
  apply Permutation_app_head, perm_swap.
Qed.
Print Assumptions c56_one_exchange_partial.

(** Every other vector of two or more elements: the second exchange throws, since
    `temp` has been assigned once after its default construction. *)
Theorem c56_otherwise_refuted : forall lm w arr size temp swapped col s l fuel,
  sort_call w arr size temp swapped col s l -> ~ ascending l -> (forall l', one_exchange l l' -> ~ ascending l') ->
  (2 <= fuel)%nat ->
  exists w', bs lm arr size temp swapped col s fuel w = (Thrown (Ass "try to delete nullptr"), w') /\
    sort_end w w' arr size temp swapped col s.
Proof.
  intros lm w arr size temp swapped col s l fuel [ND [WO [OA [HA [TA [G1 [G2 [G3 [G4 [U [Ft N]]]]]]]]]]] NA X F.
  destruct (first_descent l NA) as [p [a [b [q [-> [A D]]]]]].
  destruct (bs_rounds lm arr size temp swapped col s ND w (p ++ a :: b :: q) fuel) as [w' [Fr [E1 [E2 [E3 R]]]]]; auto.
  { unfold bs_pre, fits in *. repeat (split; [assumption|]). lia. }
  { rewrite app_length. simpl. lia. }
  destruct fuel as [|[|k]]; [lia|lia|]. rewrite (rounds_swap k p a b q A D) in R.
  destruct (ascending_dec (p ++ b :: a :: q)) as [C|_].
  - exfalso. apply (X (p ++ b :: a :: q)); [|exact C]. exists p, a, b, q. auto.
  - exists w'. split; [exact R|]. split; auto.
Qed.
Print Assumptions c56_otherwise_refuted.

(** A vector of one element: colon(1, 0) counts down, and arr(2) is out of range. *)
Theorem c56_single_refuted : forall lm w arr size temp swapped col s a fuel,
  sort_call w arr size temp swapped col s [a] -> (1 <= fuel)%nat ->
  exists w', bs lm arr size temp swapped col s fuel w =
      (Thrown (Ass "Error: out of boundaries --> value beyond size of vector"), w') /\
    sort_end w w' arr size temp swapped col s.
Proof.
  intros lm w arr size temp swapped col s a fuel [ND [WO [OA [HA [TA [G1 [G2 [G3 [G4 [U [Ft N]]]]]]]]]]] F.
  destruct fuel as [|k]; [lia|].
  destruct (bs_single lm arr size temp swapped col s ND w a k) as [w' [E [Fr [E1 [E2 E3]]]]].
  { unfold bs_pre, fits in *. repeat (split; [assumption|]). simpl in *. lia. }
  { unfold fits in *. simpl in *. lia. }
  exists w'. split; [exact E|]. split; auto.
Qed.
Print Assumptions c56_single_refuted.

(** An empty vector: the remainder modulo its length 0 is undefined. *)
Theorem c56_empty_refuted : forall lm w arr size temp swapped col s fuel,
  sort_call w arr size temp swapped col s [] -> (1 <= fuel)%nat ->
  exists u, fst (bs lm arr size temp swapped col s fuel w) = Undef u.
Proof.
  intros lm w arr size temp swapped col s fuel [ND [WO [OA [HA [TA [G1 [G2 [G3 [G4 [U [Ft N]]]]]]]]]]] F.
  destruct fuel as [|k]; [lia|].
  apply (bs_empty lm arr size temp swapped col s ND w k).
  { unfold bs_pre, fits in *. repeat (split; [assumption|]). simpl in *. lia. }
  { unfold fits in *. simpl in *. lia. }
Qed.
Print Assumptions c56_empty_refuted.

(** Calls of bs: the elements of arr are converted from integers. *)
Definition ex56_ops (l : list Z) : list sop :=
  match l with
  | [] => [SDefault (OD 0) TDouble]
  | _ => SNew (OD 0) TDouble (Z.of_nat (length l)) ::
      map (fun k => SSet (OD 0) (Z.of_nat k) (VD (i2f (nth k l 0)))) (seq 0 (length l))
  end ++ [SDefault (OT 0) TDouble].
Definition ex56_w (l : list Z) : world := snd (exec (ex56_ops l) (empty_world 1000)).
Lemma ex56_ok l : fst (exec (ex56_ops l) (empty_world 1000)) = Done tt -> allowed (ex56_ops l) (empty_world 1000) ->
  world_ok (ex56_w l).
Proof. intros R A. pose proof (exec_final 1000 (ex56_ops l) ltac:(lia) A) as F. rewrite (exec_run _ _ R) in F. apply F. Qed.
Ltac show_call :=
  split; [repeat constructor; simpl; intuition discriminate|];
  split; [apply ex56_ok; [vm_compute; reflexivity|show_allowed]|];
  split; [split; vm_compute; reflexivity|]; split; [show_holds|]; split; [vm_compute; reflexivity|];
  do 4 (split; [split; apply unborn_ptr; vm_compute; reflexivity|]);
  split; [apply unborn_ptr; vm_compute; reflexivity|]; split; [vm_compute; discriminate|vm_compute; reflexivity].

Example c56_ex_sorted : sort_call (ex56_w [1; 2; 3]) 0 2 3 4 5 6 (map i2f [1; 2; 3]) /\ ascending (map i2f [1; 2; 3]).
Proof. split; [show_call|vm_compute; tauto]. Qed.
Example c56_ex_exchange : sort_call (ex56_w [1; 3; 2]) 0 2 3 4 5 6 (map i2f [1; 3; 2]) /\ Forall valid (map i2f [1; 3; 2]) /\
  one_exchange (map i2f [1; 3; 2]) (map i2f [1; 2; 3]) /\ ascending (map i2f [1; 2; 3]).
Proof.
  split; [show_call|]. split; [repeat constructor; apply i2f_valid|].
  split; [exists [i2f 1], (i2f 3), (i2f 2), []; vm_compute; auto|vm_compute; tauto].
Qed.
Example c56_ex_otherwise : sort_call (ex56_w [3; 1; 2]) 0 2 3 4 5 6 (map i2f [3; 1; 2]) /\
  ~ ascending (map i2f [3; 1; 2]) /\ forall l', one_exchange (map i2f [3; 1; 2]) l' -> ~ ascending l'.
Proof.
  split; [show_call|]. split; [vm_compute; intuition discriminate|].
  intros l' [p [a [b [q [E [D ->]]]]]]. destruct p as [|x [|y [|z p]]]; simpl in E.
  - injection E as <- <- <-. vm_compute. intuition discriminate.
  - injection E as <- <- <- <-. vm_compute in D. discriminate.
  - exfalso. injection E as _ _ _ E. discriminate.
  - exfalso. injection E as _ _ _ E. destruct p; discriminate.
Qed.
Example c56_ex_single : sort_call (ex56_w [7]) 0 2 3 4 5 6 (map i2f [7]).
Proof. show_call. Qed.
Example c56_ex_empty : sort_call (ex56_w []) 0 2 3 4 5 6 (map i2f []).
Proof. show_call. Qed.
