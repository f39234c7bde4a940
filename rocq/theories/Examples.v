(** Concrete program states used to show that the hypotheses of the property
    theorems can be met.  No theorem depends on this file. *)
From Coq Require Import ZArith List String Bool Lia.
From Verif Require Import Base Num StoreModel VecModel Spec SpecExpr SpecHist StoreProofs StoreThms StoreHist.
Import ListNotations.
Open Scope Z_scope.

(** Vector 0 holds 1, 2, 3; vector 1 holds two zeros; vectors 2, 3, ... do not
    exist; the allocator serves up to 1000 elements. *)
Definition d1 : val := VD (i2f 1).
Definition d2 : val := VD (i2f 2).
Definition d3 : val := VD (i2f 3).
Definition d0 : val := VD (i2f 0).

Definition ex_ops : list sop :=
  [ SNew (OD 0) TDouble 3; SSet (OD 0) 0 d1; SSet (OD 0) 1 d2; SSet (OD 0) 2 d3; SDefault (OT 0) TDouble;
    SNew (OD 1) TDouble 2; SDefault (OT 1) TDouble ].

Definition ex_w : world := snd (exec ex_ops (empty_world 1000)).

Lemma exec_run ops w : fst (exec ops w) = Done tt -> exec ops w = (Done tt, snd (exec ops w)).
Proof. destruct (exec ops w). simpl. congruence. Qed.

Lemma ex_run : exec ex_ops (empty_world 1000) = (Done tt, ex_w).
Proof. apply exec_run. vm_compute. reflexivity. Qed.

Lemma unborn_ptr w o : ptr (ob w o) = None -> unborn w o.
Proof. intros H a [P _]. congruence. Qed.

Lemma allowed_cons op r w : op_pre w op -> fst (run_op op w) = Done tt -> allowed r (snd (run_op op w)) ->
  allowed (op :: r) w.
Proof.
  intros P D A. cbn [allowed]. split; [exact P|]. destruct (run_op op w) as [x w']. simpl in *. now rewrite D.
Qed.

Ltac show_pre :=
  cbn [op_pre];
  repeat match goal with |- _ /\ _ => split end;
  first [ exact I
        | apply unborn_ptr; vm_compute; reflexivity
        | vm_compute; congruence
        | vm_compute; reflexivity
        | intros _; vm_compute; congruence
        | left; vm_compute; congruence
        | right; vm_compute; reflexivity
        | eexists; vm_compute; reflexivity ].
Ltac show_allowed :=
  repeat (apply allowed_cons; [show_pre|vm_compute; reflexivity|]); exact I.

Lemma ex_allowed : allowed ex_ops (empty_world 1000).
Proof. show_allowed. Qed.

Lemma ex_ok : world_ok ex_w.
Proof.
  pose proof (exec_final 1000 ex_ops ltac:(lia) ex_allowed) as A.
  rewrite ex_run in A. apply A.
Qed.

Lemma ex_no_leak : no_leak ex_w.
Proof.
  pose proof (exec_final 1000 ex_ops ltac:(lia) ex_allowed) as A.
  rewrite ex_run in A. apply A.
Qed.

Ltac each_index :=
  match goal with
  | i : nat, H : (?i < _)%nat |- _ =>
      repeat (destruct i as [|i]; [apply pair_eta; [vm_compute; reflexivity|apply at_rd_pure]|]); simpl in H; exfalso; lia
  end.
Ltac show_holds := split; [vm_compute; reflexivity|intros i Hi; each_index].

Lemma ex_holds0 : vholds ex_w 0 [d1; d2; d3].
Proof. show_holds. Qed.
Lemma ex_holds1 : vholds ex_w 1 [d0; d0].
Proof. show_holds. Qed.
Lemma ex_owning x : owning ex_w x.
Proof. destruct x as [|[|x]]; split; vm_compute; reflexivity. Qed.
Lemma ex_ready0 : ready ex_w 0.
Proof. split; [vm_compute; discriminate|left; vm_compute; reflexivity]. Qed.
Lemma ex_ready1 : ready ex_w 1.
Proof. split; [vm_compute; discriminate|left; vm_compute; reflexivity]. Qed.
Lemma ex_small x : small ex_w x.
Proof. destruct x as [|[|x]]; split; vm_compute; reflexivity. Qed.
Lemma ex_unbornD x : (2 <= x)%nat -> unborn ex_w (OD x).
Proof. intros H. destruct x as [|[|x]]; [lia|lia|]. apply unborn_ptr; vm_compute; reflexivity. Qed.
Lemma ex_unbornT x : (2 <= x)%nat -> unborn ex_w (OT x).
Proof. intros H. destruct x as [|[|x]]; [lia|lia|]. apply unborn_ptr; vm_compute; reflexivity. Qed.
Lemma ex_kd o : kd (ob ex_w o) = KBuffer.
Proof. destruct o as [[|[|x]]|[|[|x]]]; vm_compute; reflexivity. Qed.
Lemma ex_lim : hlim (hp ex_w) = 1000.
Proof. reflexivity. Qed.
Lemma ex_shape : world_shape ex_w.
Proof. exact (proj1 ex_ok). Qed.
Ltac show_unborn :=
  match goal with
  | |- unborn _ (OD _) => apply ex_unbornD; lia
  | |- unborn _ (OT _) => apply ex_unbornT; lia
  end.
Ltac show_kd :=
  match goal with
  | |- kd _ = _ => apply ex_kd
  | |- owning _ _ => apply ex_owning
  end.
