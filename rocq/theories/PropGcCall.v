(** C92: functions called from R, and whole R programs that call them, under
    every garbage collector R may have. *)
From Coq Require Import ZArith List String Bool Lia Arith.
From Verif Require Import Base Num StoreModel VecModel SubsetModel AllocModel ProgModel LangModel OutModel ForeignModel CallModel JumpModel RgcModel GcCallModel
  Spec SpecExpr SpecVec SpecHist SpecProg SpecSub SpecAlloc SpecCons SpecStmt SpecMat SpecSafe SpecLang SpecOut SpecForeign SpecGc SpecCall SpecSession SpecJump SpecGcCall
  StoreProofs GcProofs BlindProofs CallSafe JumpProofs JumpThms GcCallProofs PropVec PropCall PropJump.
Import ListNotations.
Open Scope Z_scope.
Local Notation length := List.length (only parsing).

Lemma rest_sim s : at_rest (rw s) -> gsim (fun _ => True) (rw s) s.
Proof.
  destruct s as [w st rt]. cbn [rw]. intros [W [P _]]. apply (gsim_same (X := none) w (mkRW w st rt) st rt eq_refl); [intros a; right; intros []|apply P| |intros a []]. cbn [rw]. intros a cs H.
  destruct (le_lt_dec (hnext (hp w)) a) as [L|L]; [|exact L]. rewrite (ws_fresh _ W a L) in H. discriminate.
Qed.
Lemma call_sim G N lm ps b s : at_rest (rw s) -> exists o w1 s1, jcall N lm ps b (rw s) = (o, w1) /\ jcall_g G N lm ps b s = (o, s1) /\
  gsim (match o with Done x => gave x | _ => none end) w1 s1 /\ moved (no_try b /\ exists x, o = Done x) (rw s) s w1 s1.
Proof. intros AR. apply step_jcall. apply (gsim_weak (fun _ => True)); [intros a _; exact I|now apply rest_sim]. Qed.

(** Whatever the collector does during a call, the call ends as it would without
    one: with the same result, exception or undefined behaviour.  Only objects
    of R that it does not have to keep have been freed, and the result is not
    among them.  What R reaches is the same as before; the protection stack has
    at most grown, by objects made in this call. *)
Theorem c92_call : forall G N lm ps b s out w', at_rest (rw s) -> jcall N lm ps b (rw s) = (out, w') ->
  exists s', jcall_g G N lm ps b s = (out, s') /\ but_garbage w' s' /\ root s' = root s /\
    (exists l, pstk s' = l ++ pstk s /\ forall a, In a l -> hblk (hp (rw s)) a = Unused) /\
    (forall o, out = Done (Gave o) -> hblk (hp (rw s')) (r_mem o) = hblk (hp w') (r_mem o)).
Proof.
  intros G N lm ps b s out w' AR E. destruct (call_sim G N lm ps b s AR) as [o [w1 [s1 [E1 [E2 [S [R [_ [l [P [F _]]]]]]]]]]]. rewrite E in E1. injection E1 as -> ->.
  exists s1. split; [exact E2|]. split; [eapply gsim_garbage; exact S|]. split; [exact R|]. split.
  - exists l. split; [exact P|]. intros a Ia. apply (ws_fresh _ (proj1 AR)). auto.
  - intros r ->. apply (gsim_blk _ _ _ _ S). reflexivity.
Qed.
Print Assumptions c92_call.

(** Functions without catch that come to an end (with return, or just so) leave
    the protection stack as they found it. *)
Theorem c92_balanced : forall G N lm ps b s f s', at_rest (rw s) -> no_try b -> jcall_g G N lm ps b s = (Done f, s') -> pstk s' = pstk s.
Proof.
  intros G N lm ps b s f s' AR NT E. destruct (call_sim G N lm ps b s AR) as [o [w1 [s1 [E1 [E2 [S [R [_ [l [P [F Z]]]]]]]]]]]. rewrite E in E2. injection E2 as <- <-.
  rewrite P, Z; [reflexivity|]. split; [exact NT|]. eauto.
Qed.
Print Assumptions c92_balanced.

(** With a catch they need not: the object of a conversion that failed stays on
    the stack, though the function returns a result.
      SEXP f(SEXP r) { Vec<double> x; x = r; try { return cpp2R(subset(x, 10)); } catch (...) { return cpp2R(x); } } *)
Definition second_try_fn : jstmt := JTry (JRet TDouble (LSel (LVar 0) (LXZ 10))) (JRet TDouble (LVar 0)).
Definition everything : collector := fun _ _ => true.
Definition gc_start : rworld := mkRW c83_w [] (fun a => Nat.ltb a 3).
Theorem c92_stack_refuted : forall lm, exists ps b s o s', at_rest (rw s) /\ NoDup (map p_name ps) /\ returns b /\
  (forall p, In p ps -> r_real (rw s) (p_obj p) /\ root s (r_mem (p_obj p)) = true) /\
  jcall_g everything 1 lm ps b s = (Done (Gave o), s') /\ exists a, pstk s' = a :: pstk s /\ a <> r_mem o.
Proof.
  intros lm. exists [mkP 0 TDouble (mkR TDouble 0 (Some (2, 3)))], second_try_fn, gc_start. eexists _, _. split; [exact c83_rest|]. split; [repeat constructor; intros []|].
  split; [cbn; auto|]. split.
  - intros p [<-|[]]. split; [|reflexivity]. exists (map (fun z => VD (i2f z)) [1; 2; 3; 4; 5; 6]). split; [reflexivity|]. repeat constructor.
  - split; [vm_compute; reflexivity|]. eexists. split; [vm_compute; reflexivity|]. vm_compute. discriminate.
Qed.
Print Assumptions c92_stack_refuted.

(** What a function means (c91_call) is what it gives under every collector. *)
Theorem c92_means : forall G N lm ty ps b (m : mstate) r m' s, at_rest (rw s) -> NoDup (map p_name ps) ->
  (forall p, In p ps -> ty (p_name p) = p_type p) -> Forall (passed (rw s) m) ps ->
  jsem N lm ty (hlim (hp (rw s))) [] (map p_name ps) b m r m' ->
  exists out s', jcall_g G N lm ps b s = (out, s') /\ jends_with (rw s) (rw s') out r /\
    (r <> JMore -> at_rest (rw s') /\ hlim (hp (rw s')) = hlim (hp (rw s))) /\
    (forall a own cs, own <> OwnCpp -> hblk (hp (rw s)) a = Live own cs -> holds_on s a \/ own <> OwnR -> hblk (hp (rw s')) a = Live own cs).
Proof.
  intros G N lm ty ps b m r m' s AR ND TY PA X. destruct (c91_call N lm ty ps b m r m' (rw s) AR ND TY PA X) as [out [w' [E [J [FK Re]]]]].
  destruct (c92_call G N lm ps b s out w' AR E) as [s' [E' [BG [Ro [[l [P Fl]] Res]]]]]. exists out, s'. split; [exact E'|]. split; [|split].
  - destruct r; auto. destruct J as [o [-> [J1 [J2 [J3 J4]]]]]. exists o. split; [reflexivity|]. split; [exact J1|]. split; [exact J2|]. split; [|exact J4].
    now rewrite (Res o eq_refl).
  - intros NM. destruct (Re NM) as [A1 A2]. split; [eapply garbage_rest; eauto|]. destruct BG as [_ [_ [L _]]]. congruence.
  - intros a own cs NO Ha Ho. destruct BG as [_ [_ [_ B]]]. pose proof (FK a own cs NO Ha) as K. destruct (B a) as [Q|[[c Q] [_ NH]]]; [congruence|]. exfalso.
    rewrite K in Q. injection Q as -> ->. destruct Ho as [Ho|Ho]; [|now apply Ho]. apply NH. destruct Ho as [Ho|Ho]; [left; congruence|right]. rewrite P. apply in_or_app. now right.
Qed.
Print Assumptions c92_means.

(** An R program that uses only objects it has not forgotten cannot tell which
    collector it runs with: all its calls end as without one, all elements it
    looks at are the same. *)
Theorem c92_program : forall G N lm p av s r w', at_rest (rw s) -> remembers av p -> (forall o, In o av -> root s (r_mem o) = true) ->
  run_r N lm p (rw s) = (r, w') -> exists s', run_r_g G N lm p s = (r, s') /\ but_garbage w' s'.
Proof.
  intros G N lm p av s r w' AR Re Ro E. destruct (run_sim G N lm p av (rw s) s) as [r1 [w1 [s1 [E1 [E2 S]]]]]; auto.
  - eapply gsim_none. apply rest_sim. exact AR.
  - rewrite E in E1. injection E1 as <- <-. exists s1. split; [exact E2|]. eapply gsim_garbage; exact S.
Qed.
Print Assumptions c92_program.

(** Memory safety of whole R programs under every collector: a program whose
    functions the compiler accepts ends with nothing left of the library, what
    R still reaches as it was; or it is stopped by a function that is still
    running, by lack of memory, or by arithmetic without a defined value (or an
    element that was never written: see c92_written). *)
Theorem c92_safe : forall G N lm p av s r s', at_rest (rw s) -> hlim (hp (rw s)) < 2 ^ 31 -> remembers av p -> well_made p ->
  (forall o, In o av -> r_real (rw s) o /\ root s (r_mem o) = true) -> run_r_g G N lm p s = (r, s') ->
  (forall a own cs, own <> OwnCpp -> hblk (hp (rw s)) a = Live own cs -> holds_on s' a \/ own <> OwnR -> hblk (hp (rw s')) a = Live own cs) /\
  match r with
  | inl _ => at_rest (rw s')
  | inr (Done f) => f = More
  | inr (Thrown e) => e = BadAlloc
  | inr (Undef u) => arithmetic u \/ u = UB_uninit
  end.
Proof.
  intros G N lm p av s r s' AR HL Rm Wm Re E. destruct (run_r N lm p (rw s)) as [r1 w1] eqn:E1.
  destruct (c92_program G N lm p av s r1 w1 AR Rm (fun o I => proj2 (Re o I)) E1) as [s1 [E2 BG]]. rewrite E in E2. injection E2 as <- <-.
  pose proof (program_safe false N lm p av (rw s) AR HL Rm Wm ltac:(discriminate) (fun o I => proj1 (Re o I))) as Q. rewrite E1 in Q. destruct Q as [FK Q]. split.
  - intros a own cs NO Ha Ho. pose proof BG as [_ [_ [_ B]]]. pose proof (FK a own cs NO Ha) as K. destruct (B a) as [X|[[c X] [_ NH]]]; [congruence|]. exfalso.
    rewrite K in X. injection X as -> ->. destruct Ho as [Ho|Ho]; [contradiction|now apply Ho].
  - destruct r as [[]|[f|e|u]]; auto; [eapply garbage_rest; eauto|]. destruct Q as [Q|[_ Q]]; auto.
Qed.
Print Assumptions c92_safe.

Theorem c92_written : forall G N lm p av s u s', at_rest (rw s) -> hlim (hp (rw s)) < 2 ^ 31 -> remembers av p -> well_made p -> program_writes_all p ->
  (forall o, In o av -> r_real (rw s) o /\ root s (r_mem o) = true) -> run_r_g G N lm p s = (inr (Undef u), s') -> arithmetic u.
Proof.
  intros G N lm p av s u s' AR HL Rm Wm Wr Re E. destruct (run_r N lm p (rw s)) as [r1 w1] eqn:E1.
  destruct (c92_program G N lm p av s r1 w1 AR Rm (fun o I => proj2 (Re o I)) E1) as [s1 [E2 BG]]. rewrite E in E2. injection E2 as <- <-.
  pose proof (program_safe true N lm p av (rw s) AR HL Rm Wm (fun _ => Wr) (fun o I => proj1 (Re o I))) as Q. rewrite E1 in Q.
  destruct Q as [_ [Q|[Q _]]]; [exact Q|discriminate].
Qed.
Print Assumptions c92_written.

(* ---------------------------------------------------------------- examples *)

(** R makes c(-1, 5, 7), passes it to first_fn of c91 and forgets it, sums up
    the result and looks at the sum. *)
Definition gc_prog : rprog :=
  GMake TDouble [VD (i2f (-1)); VD (i2f 5); VD (i2f 7)] None (fun x =>
  GCall [mkP 0 TDouble x] first_fn (fun r =>
  match r with
  | None => GEnd
  | Some y => GForget (fun a => Nat.eqb a (r_mem y)) 0 (GCall [mkP 0 TDouble y] sum_fn (fun r =>
      match r with None => GEnd | Some z => GLook z (fun _ => GEnd) end))
  end)).
Lemma gc_prog_ok : remembers [] gc_prog /\ well_made gc_prog /\ program_writes_all gc_prog.
Proof.
  assert (S1 : scoped_j false [0%nat] [0%nat] first_fn /\ writes_all_j first_fn /\ returns first_fn)
    by (split; [|split; [cbn; auto|]]; cbn; unfold incl; cbn; intuition (try congruence; auto)).
  assert (S2 : scoped_j false [0%nat] [0%nat] sum_fn /\ writes_all_j sum_fn /\ returns sum_fn)
    by (split; [|split; [cbn; auto|]]; cbn; unfold incl; cbn; intuition (try congruence; auto)).
  assert (ND : NoDup [0%nat]) by (repeat constructor; intros []).
  unfold gc_prog. split; [|split].
  - cbn [remembers]. intros x. split; [intros q [<-|[]]; cbn; auto|]. split; [exact I|]. intros y. cbn [filter r_mem]. rewrite Nat.eqb_refl.
    split; [intros q [<-|[]]; cbn; auto|]. split; [exact I|]. intros z. cbn. auto.
  - cbn [well_made]. split; [repeat constructor|]. intros x. split; [exact ND|]. split; [apply S1|]. split; [apply S1|]. intros [y|]; cbn [well_made]; [|exact I].
    split; [exact ND|]. split; [apply S2|]. split; [apply S2|]. intros [z|]; cbn; auto.
  - cbn [program_writes_all]. intros x. split; [apply S1|]. intros [y|]; cbn [program_writes_all]; [|exact I]. split; [apply S2|]. intros [z|]; cbn; auto.
Qed.
Example c92_ex : forall G lm, exists s', run_r_g G 5 lm gc_prog gc_start = (inl tt, s') /\ at_rest (rw s').
Proof.
  intros G lm. destruct (run_r 5 lm gc_prog (rw gc_start)) as [r w'] eqn:E. assert (Er : r = inl tt) by (apply (f_equal fst) in E; vm_compute in E; now symmetry). subst r.
  destruct (c92_program G 5 lm gc_prog [] gc_start _ _ c83_rest (proj1 gc_prog_ok) ltac:(intros o []) E) as [s' [E' BG]]. exists s'. split; [exact E'|].
  destruct (c92_safe G 5 lm gc_prog [] gc_start _ s' c83_rest ltac:(vm_compute; reflexivity) (proj1 gc_prog_ok) (proj1 (proj2 gc_prog_ok)) ltac:(intros o []) E') as [_ Q]. exact Q.
Qed.
(** The collector that frees what it can: the vectors R has forgotten are gone
    after the second call, the result of the first call and the sum are there. *)
Example c92_ex_run : forall lm, let s' := snd (run_r_g everything 5 lm gc_prog gc_start) in
  (forall a, (a < 7)%nat -> hblk (hp (rw s')) a = Freed) /\ pstk s' = [] /\
  Forall (fun a => root s' a = true /\ hblk (hp (rw s')) a = Live OwnR [Some (VD (i2f 5))]) [7; 12]%nat.
Proof.
  intros lm. cbv zeta. split; [|split; [vm_compute; reflexivity|]].
  - intros a La. do 7 (destruct a as [|a]; [vm_compute; reflexivity|]). lia.
  - repeat constructor; vm_compute; reflexivity.
Qed.
(** Using an object R has forgotten: its memory may be gone. *)
Example c92_forgotten_ex : forall lm, fst (run_r_g everything 5 lm
    (GMake TDouble [VD (i2f 4)] None (fun x => GForget (fun _ => false) 0 (GMake TInt [VI 1] None (fun _ =>
       GCall [mkP 0 TDouble x] first_fn (fun _ => GEnd))))) gc_start) = inr (Undef UB_freed).
Proof. intros lm. vm_compute. reflexivity. Qed.
