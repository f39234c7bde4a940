(** C96: functions that use the memory of R objects, and whole R programs that
    call them, under every garbage collector R may have. *)
From Coq Require Import ZArith List String Bool Lia Arith.
From Verif Require Import Base Num StoreModel VecModel SubsetModel AllocModel ProgModel LangModel OutModel ForeignModel CallModel JumpModel RgcModel GcCallModel WrapCallModel GcWrapModel
  Spec SpecExpr SpecHist SpecSafe SpecLang SpecOut SpecForeign SpecGc SpecCall SpecSession SpecStatic SpecJump SpecGcCall SpecWrapCall SpecGcWrap
  StoreProofs GcProofs BlindProofs CallSafe JumpProofs GcCallProofs WrapCallProofs GcWrapProofs PropCall PropJump PropGcCall PropWrapCall.
Import ListNotations.
Open Scope Z_scope.
Local Notation length := List.length (only parsing).

(** R reaches the object during the call (as .Call does for its arguments). *)
Definition reached (s : rworld) (ps : list wparam) : Prop :=
  forall p, In p ps -> wraps p = true -> root s (r_mem (w_obj p)) = true /\ exists own cs, hblk (hp (rw s)) (r_mem (w_obj p)) = Live own cs.
Lemma wrap_sim G N lm ps b s : at_rest (rw s) -> reached s ps -> exists o w1 s1, wcall N lm ps b (rw s) = (o, w1) /\ wcall_g G N lm ps b s = (o, s1) /\
  gsimX (fun a => In a (wrapped_mem ps)) (match o with Done x => gave x | _ => none end) w1 s1 /\ moved (no_try b /\ exists x, o = Done x) (rw s) s w1 s1.
Proof. intros AR H. apply wcall_sim; auto. apply (gsim_weak (fun _ => True)); [auto|now apply rest_sim]. Qed.

(** Whatever the collector does during a call, it ends as it would without one
    if R reaches the wrapped objects: with the same result, exception or
    undefined behaviour, and the same elements in the wrapped objects.  Only
    objects of R that it does not have to keep have been freed; the result is
    not among them.  There is no condition on what the function does. *)
Theorem c96_call : forall G N lm ps b s out w', at_rest (rw s) -> reached s ps -> wcall N lm ps b (rw s) = (out, w') ->
  exists s', wcall_g G N lm ps b s = (out, s') /\ but_garbage w' s' /\ root s' = root s /\
    (exists l, pstk s' = l ++ pstk s /\ forall a, In a l -> hblk (hp (rw s)) a = Unused) /\
    (forall a, In a (wrapped_mem ps) -> hblk (hp (rw s')) a = hblk (hp w') a) /\
    (forall o, out = Done (Gave o) -> hblk (hp (rw s')) (r_mem o) = hblk (hp w') (r_mem o)).
Proof.
  intros G N lm ps b s out w' AR H E. destruct (wrap_sim G N lm ps b s AR H) as [o [w1 [s1 [E1 [E2 [S [R [_ [l [P [F _]]]]]]]]]]]. rewrite E in E1. injection E1 as -> ->.
  exists s1. split; [exact E2|]. split; [eapply gsim_garbage; exact S|]. split; [exact R|]. split; [|split].
  - exists l. split; [exact P|]. intros a Ia. apply (ws_fresh _ (proj1 AR)). auto.
  - intros a Ia. destruct S as [T [B1 [B2 [Rr [_ [_ [_ V]]]]]]]. apply (rel_same _ _ _ _ _ _ Rr). now apply V.
  - intros r ->. apply (gsim_blk _ _ _ _ S). reflexivity.
Qed.
Print Assumptions c96_call.

(** Without catch, what comes to an end leaves the protection stack as it was. *)
Theorem c96_balanced : forall G N lm ps b s f s', at_rest (rw s) -> reached s ps -> no_try b -> wcall_g G N lm ps b s = (Done f, s') -> pstk s' = pstk s.
Proof.
  intros G N lm ps b s f s' AR H NT E. destruct (wrap_sim G N lm ps b s AR H) as [o [w1 [s1 [E1 [E2 [S [R [_ [l [P [F Z]]]]]]]]]]]. rewrite E in E2. injection E2 as <- <-.
  rewrite P, Z; [reflexivity|]. split; [exact NT|]. eauto.
Qed.
Print Assumptions c96_balanced.

(** Functions without wrapping parameters: those of C92. *)
Theorem c96_copies : forall G N lm b ps s, wcall_g G N lm (map (mkW ByCopy) ps) b s = jcall_g G N lm ps b s.
Proof.
  intros G N lm b ps. induction ps as [|p ps IH]; intros s; [reflexivity|]. cbn [map wcall_g jcall_g].
  rewrite !beq. destruct (inw (vec_default _ _) s) as [[[]|e|u] s1]; auto.
  unfold jscope_g. rewrite !beq. destruct (inw (assign_R _ _) s1) as [[[]|e|u] s2]; auto. now rewrite IH.
Qed.
Print Assumptions c96_copies.

(** If R does not reach the wrapped object the collector may free it under the
    function's hands:
      Vec<double, BorrowSEXP<double>> x(r); return cpp2R(x); *)
Definition back_fn : jstmt := JRet TDouble (LVar 0).
Definition lost : rworld := mkRW c83_w [] (fun _ => false).
Theorem c96_reached_refuted : forall N lm, exists G ps b s, at_rest (rw s) /\ wcall_ok ps b /\ returns b /\
  (forall p, In p ps -> r_real (rw s) (w_obj p) /\ nonempty (rw s) (w_obj p)) /\
  (exists o w', wcall N lm ps b (rw s) = (Done (Gave o), w')) /\ fst (wcall_g G N lm ps b s) = Undef UB_freed.
Proof.
  intros N lm. exists everything, [mkW ByWrap (mkP 0 TDouble c93_m)], back_fn, lost. split; [exact c83_rest|]. split.
  { split; [repeat constructor; intros []|]. split; [cbn; unfold incl; cbn; intuition|cbn; auto]. }
  split; [cbn; auto|]. split; [intros p [<-|[]]; apply c93_real|]. split; [eexists _, _; destruct N; vm_compute; reflexivity|destruct N; vm_compute; reflexivity].
Qed.
Print Assumptions c96_reached_refuted.

(** An R program that only uses objects it has not forgotten, and whose
    functions keep to the rules of C93 for wrapping parameters, cannot tell
    which collector it runs with. *)
Theorem c96_program_partial : forall G N lm p av nv s r w', at_rest (rw s) -> hlim (hp (rw s)) < 2 ^ 31 -> cells_typed (rw s) -> wprog_ok av nv p ->
  (forall o, In o av -> r_real (rw s) o /\ root s (r_mem o) = true) -> (forall o, In o nv -> In o av /\ nonempty (rw s) o) ->
  run_w N lm p (rw s) = (r, w') -> exists s', run_w_g G N lm p s = (r, s') /\ but_garbage w' s'.
Proof.
  intros G N lm p av nv s r w' AR HL CT Ok Re Ne E.
  destruct (wprog_sim false G N lm p av nv (rw s) s) as [r1 [w1 [s1 [E1 [E2 [BG _]]]]]]; auto; [eapply gsim_none, rest_sim; exact AR|discriminate|now split|].
  rewrite E in E1. injection E1 as <- <-. eauto.
Qed.
Print Assumptions c96_program_partial.

(** Memory safety of such programs under every collector: they end with nothing
    left of the library, and what R still reaches and was never wrapped as it
    was; or are stopped by a function that is still running, by lack of memory,
    by arithmetic without a defined value or an element that was never written. *)
Theorem c96_safe_partial : forall G N lm p av nv s r s', at_rest (rw s) -> hlim (hp (rw s)) < 2 ^ 31 -> cells_typed (rw s) -> wprog_ok av nv p ->
  (forall o, In o av -> r_real (rw s) o /\ root s (r_mem o) = true) -> (forall o, In o nv -> In o av /\ nonempty (rw s) o) ->
  run_w_g G N lm p s = (r, s') ->
  (forall a own cs, wprog_avoids a p -> own <> OwnCpp -> hblk (hp (rw s)) a = Live own cs -> holds_on s' a \/ own <> OwnR -> hblk (hp (rw s')) a = Live own cs) /\
  match r with
  | inl _ => at_rest (rw s')
  | inr (Done f) => f = More
  | inr (Thrown e) => e = BadAlloc
  | inr (Undef u) => arithmetic u \/ u = UB_uninit
  end.
Proof.
  intros G N lm p av nv s r s' AR HL CT Ok Re Ne E.
  destruct (wprog_sim false G N lm p av nv (rw s) s) as [r1 [w1 [s1 [E1 [E2 [BG [En Av]]]]]]]; auto; [eapply gsim_none, rest_sim; exact AR|discriminate|now split|].
  rewrite E in E2. injection E2 as <- <-. split.
  - intros a own cs Na NO Ha Ho. pose proof BG as [_ [_ [_ B]]]. pose proof (Av a Na own cs NO Ha) as K. destruct (B a) as [X|[[c X] [_ NH]]]; [congruence|]. exfalso.
    rewrite K in X. injection X as -> ->. destruct Ho as [Ho|Ho]; [contradiction|now apply Ho].
  - destruct r as [[]|[f|e|u]]; cbn [wprog_ends] in En; auto; [eapply garbage_rest; [apply En|exact BG]|]. destruct En as [Q|[_ Q]]; auto.
Qed.
Print Assumptions c96_safe_partial.

Theorem c96_written_partial : forall G N lm p av nv s u s', at_rest (rw s) -> hlim (hp (rw s)) < 2 ^ 31 -> cells_typed (rw s) -> wprog_ok av nv p -> wprog_writes_all p ->
  (forall o, In o av -> r_real (rw s) o /\ root s (r_mem o) = true) -> (forall o, In o nv -> In o av /\ nonempty (rw s) o) ->
  run_w_g G N lm p s = (inr (Undef u), s') -> arithmetic u.
Proof.
  intros G N lm p av nv s u s' AR HL CT Ok Wr Re Ne E.
  destruct (wprog_sim true G N lm p av nv (rw s) s) as [r1 [w1 [s1 [E1 [E2 [BG [En Av]]]]]]]; auto; [eapply gsim_none, rest_sim; exact AR|now split|].
  rewrite E in E2. injection E2 as <- <-. destruct En as [Q|[Q _]]; [exact Q|discriminate].
Qed.
Print Assumptions c96_written_partial.

(* ---------------------------------------------------------------- examples *)

(** R makes c(1, 2, 3); a function that wraps it and sets its second element to
    9 is called for it; R forgets everything else; the function returns a copy,
    which is wrapped in turn after R has looked at it. *)
Definition set2_fn : jstmt := JSeq (JDo (LAtSet 0 (PZ 2) (VD (i2f 9)))) (JRet TDouble (LVar 0)).
Definition wrap_prog : wprog :=
  YMake TDouble [VD (i2f 1); VD (i2f 2); VD (i2f 3)] None (fun x =>
  YForget (fun a => Nat.eqb a (r_mem x)) 0 (
  YCall [mkW ByWrap (mkP 0 TDouble x); mkW ByCopy (mkP 1 TDouble x)] set2_fn (fun r =>
  match r with
  | None => YEnd
  | Some y => YLook y (fun cs => match cs with [] => YEnd | _ => YCall [mkW ByWrap (mkP 0 TDouble y)] set2_fn (fun _ => YEnd) end)
  end))).
Lemma wrap_prog_ok : wprog_ok [] [] wrap_prog /\ wprog_writes_all wrap_prog.
Proof.
  assert (C2 : forall x, wcall_ok [mkW ByWrap (mkP 0 TDouble x); mkW ByCopy (mkP 1 TDouble x)] set2_fn).
  { intros x. split; [repeat constructor; cbn; intuition discriminate|]. split; cbn; unfold incl; cbn; intuition (auto; discriminate). }
  assert (C1 : forall x, wcall_ok [mkW ByWrap (mkP 0 TDouble x)] set2_fn).
  { intros x. split; [repeat constructor; cbn; intuition discriminate|]. split; cbn; unfold incl; cbn; intuition (auto; discriminate). }
  split.
  - unfold wrap_prog. cbn [wprog_ok]. split; [repeat constructor|]. intros x. cbn [filter]. rewrite Nat.eqb_refl. split; [apply C2|]. split; [cbn; auto|].
    split; [intros q [<-|[<-|[]]]; cbn; auto|]. split; [exact I|]. intros y. split; [now left|]. split; [exact I|]. intros c cs. split; [apply C1|]. split; [cbn; auto|].
    split; [intros q [<-|[]]; cbn; auto|]. split; [exact I|]. intros; exact I.
  - cbn. intros x. split; [auto|]. intros [y|]; cbn; auto. intros [|c cs]; cbn; auto.
Qed.
Example c96_ex : forall G lm, exists s', run_w_g G 5 lm wrap_prog gc_start = (inl tt, s') /\ at_rest (rw s').
Proof.
  intros G lm. destruct (run_w 5 lm wrap_prog (rw gc_start)) as [r w'] eqn:E. assert (Er : r = inl tt) by (apply (f_equal fst) in E; vm_compute in E; now symmetry). subst r.
  destruct (c96_program_partial G 5 lm wrap_prog [] [] gc_start _ _ c83_rest ltac:(vm_compute; reflexivity) c93_typed (proj1 wrap_prog_ok) ltac:(intros o []) ltac:(intros o []) E) as [s' [E' BG]].
  exists s'. split; [exact E'|].
  now destruct (c96_safe_partial G 5 lm wrap_prog [] [] gc_start _ s' c83_rest ltac:(vm_compute; reflexivity) c93_typed (proj1 wrap_prog_ok) ltac:(intros o []) ltac:(intros o []) E') as [_ Q].
Qed.
(** The collector that frees what it can. *)
Example c96_ex_run : forall lm, let s' := snd (run_w_g everything 5 lm wrap_prog gc_start) in
  (forall a, (a < 3)%nat -> hblk (hp (rw s')) a = Freed) /\ pstk s' = [] /\
  hblk (hp (rw s')) 3%nat = Live OwnR (map Some [VD (i2f 1); VD (i2f 9); VD (i2f 3)]) /\ root s' 3%nat = true.
Proof.
  intros lm. cbv zeta. split; [|split; [vm_compute; reflexivity|split; vm_compute; reflexivity]].
  intros a La. do 3 (destruct a as [|a]; [vm_compute; reflexivity|]). lia.
Qed.
Example c96_call_ex : forall G lm, exists s', wcall_g G 5 lm [mkW ByWrap (mkP 0 TDouble c93_m)] set2_fn gc_start = (fst (wcall 5 lm [mkW ByWrap (mkP 0 TDouble c93_m)] set2_fn c83_w), s') /\
  hblk (hp (rw s')) 0%nat = Live OwnR (map Some (map (fun z => VD (i2f z)) [1; 9; 3; 4; 5; 6])).
Proof.
  intros G lm. destruct (wcall 5 lm [mkW ByWrap (mkP 0 TDouble c93_m)] set2_fn c83_w) as [out w'] eqn:E.
  destruct (c96_call G 5 lm [mkW ByWrap (mkP 0 TDouble c93_m)] set2_fn gc_start out w' c83_rest) as [s' [E' [_ [_ [_ [Wr _]]]]]].
  - intros p [<-|[]] _. split; [reflexivity|]. eexists _, _. reflexivity.
  - exact E.
  - exists s'. split; [exact E'|]. rewrite Wr by (now left). apply (f_equal snd) in E. cbn [snd] in E. subst w'. vm_compute. reflexivity.
Qed.
