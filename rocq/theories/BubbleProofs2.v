(** Proofs about the bubble sort example: which vectors it sorts. *)
From Coq Require Import String ZArith List Bool Lia Reals Lra SpecFloat.
From Flocq Require Import Core BinarySingleNaN.
From Verif Require Import Base Num StoreModel VecModel SubsetModel AllocModel BubbleModel FloatBridge Spec SpecExpr
  SpecHist SpecProg SpecSub SpecAlloc SpecBubble StoreProofs BubbleProofs.
Import ListNotations.
Local Notation length := List.length (only parsing).

Definition desc (l : list flt) (i : nat) : bool := flt_ltb (nth (S i) l fzero) (nth i l fzero).

Lemma ascending_desc l : ascending l <-> forall i, (S i < length l)%nat -> desc l i = false.
Proof.
  induction l as [|a [|b r] IH].
  - split; [simpl; intros; lia|easy].
  - split; [simpl; intros; lia|easy].
  - change (ascending (a :: b :: r)) with (flt_ltb b a = false /\ ascending (b :: r)). rewrite IH. split.
    + intros [A B] [|i] H; [exact A|]. apply (B i). simpl in *. lia.
    + intros A. split; [apply (A 0%nat); simpl; lia|]. intros i H. apply (A (S i)). simpl in *. lia.
Qed.

Lemma ascending_dec l : {ascending l} + {~ ascending l}.
Proof.
  induction l as [|a [|b r] IH]; [left; exact I|left; simpl; auto|].
  change (ascending (a :: b :: r)) with (flt_ltb b a = false /\ ascending (b :: r)).
  destruct (flt_ltb b a); [right; intros [A _]; discriminate|]. destruct IH; [left; auto|right; tauto].
Qed.

Lemma scan_quiet : forall k j l used sw, (forall i, (j <= i < j + k)%nat -> desc l i = false) ->
  forall k', scan (k + k') j l used sw = scan k' (j + k) l used sw.
Proof.
  induction k as [|k IH]; intros j l used sw H k'; [now rewrite Nat.add_0_r|].
  cbn [Nat.add scan]. pose proof (H j ltac:(lia)) as D. unfold desc in D. rewrite D.
  rewrite IH; [f_equal; lia|]. intros i Hi. apply H. lia.
Qed.

Lemma scan_used : forall k j l sw, scan k j l true sw = Some (l, true, sw) \/
  (scan k j l true sw = None /\ exists i, (j <= i < j + k)%nat /\ desc l i = true).
Proof.
  induction k as [|k IH]; intros j l sw; [now left|]. cbn [scan].
  destruct (flt_ltb (nth (S j) l fzero) (nth j l fzero)) eqn:D.
  - right. split; [reflexivity|]. exists j. split; [lia|exact D].
  - destruct (IH (S j) l sw) as [-> | [-> [i [Hi Di]]]]; [now left|]. right. split; [reflexivity|].
    exists i. split; [lia|exact Di].
Qed.

Lemma swap_app p a b q : swap (p ++ a :: b :: q) (length p) = p ++ b :: a :: q.
Proof.
  unfold swap. rewrite !app_nth2 by lia. rewrite Nat.sub_diag. replace (S (length p) - length p)%nat with 1%nat by lia. cbn [nth].
  induction p as [|c p IH]; [reflexivity|]. cbn [app length list_set]. now rewrite IH.
Qed.

Lemma scan_asc l used sw : ascending l -> scan (length l - 1) 0 l used sw = Some (l, used, sw).
Proof.
  intros A. rewrite <- (Nat.add_0_r (length l - 1)), scan_quiet; [reflexivity|].
  intros i Hi. apply ascending_desc; [exact A|lia].
Qed.

Lemma rounds_asc k l used : ascending l -> rounds (S k) l used = Some (Some l).
Proof. intros A. cbn [rounds]. now rewrite scan_asc. Qed.

Lemma rounds_used_not k l : ~ ascending l -> rounds (S k) l true = None.
Proof.
  intros A. cbn [rounds]. destruct (scan_used (length l - 1) 0 l false) as [E | [E _]]; [|now rewrite E].
  exfalso. apply A, ascending_desc. intros i Hi.
  destruct (desc l i) eqn:D; [|reflexivity].
  exfalso. clear A. assert (G : forall k j, (j <= i < j + k)%nat -> scan k j l true false = None).
  { clear -D. induction k as [|k IH]; intros j H; [lia|]. cbn [scan].
    destruct (flt_ltb (nth (S j) l fzero) (nth j l fzero)) eqn:Dj; [reflexivity|]. apply IH.
    destruct (Nat.eq_dec i j) as [-> | N]; [unfold desc in D; congruence|lia]. }
  rewrite G in E by lia. discriminate.
Qed.

Lemma first_descent l : ~ ascending l -> exists p a b q, l = p ++ a :: b :: q /\ ascending (p ++ [a]) /\ flt_ltb b a = true.
Proof.
  induction l as [|a [|b r] IH]; [simpl; tauto|simpl; tauto|].
  change (ascending (a :: b :: r)) with (flt_ltb b a = false /\ ascending (b :: r)). intros N.
  destruct (flt_ltb b a) eqn:D.
  - exists [], a, b, r. simpl. auto.
  - destruct IH as [p [c [d [q [E [A L]]]]]]; [tauto|]. exists (a :: p), c, d, q. split; [simpl; now rewrite E|].
    split; [|exact L]. cbn [app]. destruct p as [|x p]; simpl in E; injection E as -> E.
    + simpl. auto.
    + cbn [app]. change (flt_ltb x a = false /\ ascending ((x :: p) ++ [c])). auto.
Qed.

Lemma rounds_swap k p a b q : ascending (p ++ [a]) -> flt_ltb b a = true ->
  rounds (S (S k)) (p ++ a :: b :: q) false =
  if ascending_dec (p ++ b :: a :: q) then Some (Some (p ++ b :: a :: q)) else None.
Proof.
  intros A L. set (l := p ++ a :: b :: q). set (l' := p ++ b :: a :: q).
  assert (LN : length l = (length p + S (S (length q)))%nat) by (unfold l; rewrite app_length; reflexivity).
  assert (LN' : length l' = (length p + S (S (length q)))%nat) by (unfold l'; rewrite app_length; reflexivity).
  assert (Q : forall i, (0 <= i < 0 + length p)%nat -> desc l i = false).
  { intros i Hi. rewrite ascending_desc in A.
    specialize (A i ltac:(rewrite app_length; simpl; lia)). rewrite <- A. unfold desc, l.
    rewrite (@app_nth1 _ p (a :: b :: q) fzero i ltac:(lia)), (@app_nth1 _ p [a] fzero i ltac:(lia)). f_equal.
    destruct (Nat.eq_dec (S i) (length p)) as [E | E].
    - rewrite !app_nth2 by lia. rewrite E, Nat.sub_diag. reflexivity.
    - now rewrite !app_nth1 by lia. }
  assert (SC : scan (length l - 1) 0 l false false = scan (length q) (S (length p)) l' true true).
  { replace (length l - 1)%nat with (length p + S (length q))%nat by lia. rewrite scan_quiet by exact Q.
    cbn [Nat.add scan]. unfold l at 1 2. rewrite !app_nth2 by lia. rewrite Nat.sub_diag.
    replace (S (length p) - length p)%nat with 1%nat by lia. cbn [nth]. rewrite L.
    unfold l. now rewrite swap_app. }
  change (rounds (S (S k)) l false) with
    (match scan (length l - 1) 0 l false false with
     | None => None | Some (l1, u1, sw) => if sw then rounds (S k) l1 u1 else Some (Some l1) end).
  rewrite SC. destruct (scan_used (length q) (S (length p)) l' true) as [-> | [-> [i [Hi Di]]]].
  - destruct (ascending_dec l'); [now apply rounds_asc|now apply rounds_used_not].
  - destruct (ascending_dec l') as [A'|]; [|reflexivity].
    rewrite ascending_desc in A'. rewrite A' in Di by lia. discriminate.
Qed.

(* --------------------------------------------------------------- order *)

Lemma flt_ltb_trans a b c : valid a -> valid b -> valid c ->
  flt_ltb a b = true -> flt_ltb b c = true -> flt_ltb a c = true.
Proof.
  intros Va Vb Vc H1 H2.
  assert (F : finite a /\ finite b /\ finite c \/ ~ finite a \/ ~ finite b \/ ~ finite c).
  { unfold finite. destruct a, b, c; simpl; tauto. }
  destruct F as [[Fa [Fb Fc]] | F].
  - apply fltb_correct in H1; auto. apply fltb_correct in H2; auto. apply fltb_correct; auto. lra.
  - unfold finite in F. destruct a as [[]|[]| |[]], b as [[]|[]| |[]], c as [[]|[]| |[]]; simpl in *;
      try discriminate; try reflexivity; exfalso; tauto.
Qed.

Lemma ascending_snoc p x : ascending (p ++ [x]) <->
  ascending p /\ (p = [] \/ flt_ltb x (last p fzero) = false).
Proof.
  induction p as [|a [|b r] IH].
  - simpl. tauto.
  - simpl. split; intros H; [split; [tauto|right; tauto]|split; [|tauto]]. destruct H as [_ [H | H]]; [discriminate|exact H].
  - change (ascending ((a :: b :: r) ++ [x])) with (flt_ltb b a = false /\ ascending ((b :: r) ++ [x])).
    change (ascending (a :: b :: r)) with (flt_ltb b a = false /\ ascending (b :: r)).
    change (last (a :: b :: r) fzero) with (last (b :: r) fzero). rewrite IH.
    split; intros H.
    + destruct H as [H1 [H2 [H3 | H3]]]; [discriminate|]. tauto.
    + destruct H as [[H1 H2] [H3 | H3]]; [discriminate|]. tauto.
Qed.
Lemma ascending_app p q : ascending (p ++ q) -> ascending p.
Proof.
  intros A. rewrite ascending_desc in *. intros i Hi. specialize (A i ltac:(rewrite app_length; lia)).
  unfold desc in *. now rewrite !app_nth1 in A by lia.
Qed.

(** The exchange that puts l in order is the one at the first descent. *)
Lemma exchange_first p a b q : Forall valid (p ++ a :: b :: q) -> flt_ltb b a = true ->
  ascending (p ++ b :: a :: q) -> ascending (p ++ [a]).
Proof.
  intros V L A.
  assert (A1 : ascending (p ++ [b])).
  { apply (ascending_app _ (a :: q)). now rewrite <- app_assoc. }
  rewrite ascending_snoc in *. destruct A1 as [A1 [-> | A2]]; [auto|].
  split; [exact A1|]. destruct p as [|c p]; [now left|]. right.
  destruct (flt_ltb a (last (c :: p) fzero)) eqn:D; [|reflexivity].
  rewrite <- A2. symmetry. rewrite Forall_forall in V.
  assert (IN : In (last (c :: p) fzero) (c :: p)).
  { rewrite (app_removelast_last fzero (l := c :: p)) at 2 by discriminate. apply in_app_iff. right. now left. }
  eapply flt_ltb_trans; [| | |exact L|exact D]; apply V; apply in_app_iff; auto; right; simpl; auto.
Qed.
