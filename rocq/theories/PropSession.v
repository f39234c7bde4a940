(** Property C85: memory safety of functions called from R. *)
From Coq Require Import ZArith List String Bool Lia.
From Verif Require Import Base Num StoreModel VecModel SubsetModel AllocModel ProgModel LangModel OutModel ForeignModel CallModel
  Spec SpecExpr SpecHist SpecSafe SpecLang SpecForeign SpecCall SpecSession CallSafe PropCall.
Import ListNotations.
Open Scope Z_scope.
Local Notation length := List.length (only parsing).

(** Whatever a function does with its arguments (any body the compiler accepts,
    with nested blocks, loops, matrices and exceptions; any R objects), no memory
    is freed twice, used after it was freed or accessed outside of a block, and no
    nullptr is followed: what can be undefined is arithmetic and the reading of an
    element that was not written.  If the call ends, the library holds no memory,
    nothing leaked and the memory of R is as before; a result is an R object all of
    whose elements are written. *)
Theorem c85_safe : forall N lm ps b w r w', at_rest w -> hlim (hp w) < 2 ^ 31 -> NoDup (map p_name ps) ->
  scoped_fn (rev (map p_name ps)) b -> (forall p, In p ps -> r_real w (p_obj p)) -> call N lm ps b w = (r, w') ->
  foreign_kept w w' /\
  match r with
  | Done (Some o) => at_rest w' /\ hlim (hp w') < 2 ^ 31 /\ r_real w' o
  | Thrown (Ass _) => at_rest w' /\ hlim (hp w') < 2 ^ 31
  | Done None | Thrown BadAlloc => True
  | Undef u => arithmetic u \/ u = UB_uninit
  end.
Proof.
  intros N lm ps b w r w' AR HL ND Sc Re E.
  pose proof (call_safe false N lm ps b w AR HL ND Sc ltac:(discriminate) Re) as Q. rewrite E in Q.
  destruct Q as [FK Q]. split; [exact FK|]. destruct r as [[o|]|[m|]|u]; auto. destruct Q as [Q|[_ Q]]; auto.
Qed.
Print Assumptions c85_safe.

(** If the body only uses statements that write all elements (no resize, no
    assignment of a shared vector to a subset of itself), no element that was not
    written is read either. *)
Theorem c85_written : forall N lm ps b w u w', at_rest w -> hlim (hp w) < 2 ^ 31 -> NoDup (map p_name ps) ->
  scoped_fn (rev (map p_name ps)) b -> writes_all_fn b -> (forall p, In p ps -> r_real w (p_obj p)) ->
  call N lm ps b w = (Undef u, w') -> arithmetic u.
Proof.
  intros N lm ps b w u w' AR HL ND Sc Wr Re E.
  pose proof (call_safe true N lm ps b w AR HL ND Sc (fun _ => Wr) Re) as Q. rewrite E in Q.
  destruct Q as [_ [Q|[Q _]]]; [exact Q|discriminate].
Qed.
Print Assumptions c85_written.

(** Any R session: any number of calls of such functions, on what R had before
    and on what the calls gave back, in whatever order the results ask for.  After
    each call that ended, by its result or by an exception, the next one is as safe
    as the first; all memory of R is kept; at the end nothing is left. *)
Theorem c85_session : forall N lm s av w r w', at_rest w -> hlim (hp w) < 2 ^ 31 -> session_ok av s ->
  (forall o, In o av -> r_real w o) -> run_session N lm s w = (r, w') ->
  foreign_kept w w' /\
  match r with inl _ => at_rest w' | inr (Undef u) => arithmetic u \/ u = UB_uninit | inr _ => True end.
Proof.
  intros N lm s av w r w' AR HL Ok Re E.
  pose proof (session_safe false N lm s av w AR HL Ok ltac:(discriminate) Re) as Q. rewrite E in Q.
  destruct Q as [FK Q]. split; [exact FK|]. destruct r as [[]|[?|?|u]]; auto. destruct Q as [Q|[_ Q]]; auto.
Qed.
Print Assumptions c85_session.

Theorem c85_session_written : forall N lm s av w u w', at_rest w -> hlim (hp w) < 2 ^ 31 -> session_ok av s -> session_writes_all s ->
  (forall o, In o av -> r_real w o) -> run_session N lm s w = (inr (Undef u), w') -> arithmetic u.
Proof.
  intros N lm s av w u w' AR HL Ok Wr Re E.
  pose proof (session_safe true N lm s av w AR HL Ok (fun _ => Wr) Re) as Q. rewrite E in Q.
  destruct Q as [_ [Q|[Q _]]]; [exact Q|discriminate].
Qed.
Print Assumptions c85_session_written.

(** The hypotheses are met, in the state of c83_w: a call with an argument of
    the wrong type; as it throws, a call of the function of c83; its result is
    passed to a function that doubles it until its first element is large. *)
Definition c85_double : fbody :=
  FDo (LWhile (LBin OLt (LAt 0 (PZ 1)) (LLit (VI 50))) (LAssign 0 (LBin OPlus (LVar 0) (LVar 0)))) (FRet TDouble (LVar 0)).
Definition c85_s : session :=
  SCall [mkP 0 TBool (mkR TInt 2 None)] (FRet TInt (LVar 0)) (fun r =>
    match r with
    | Some _ => SEnd
    | None => SCall c83_ps c83_body (fun r => match r with Some o => SCall [mkP 0 TDouble o] c85_double (fun _ => SEnd) | None => SEnd end)
    end).
Example c85_ex : let av := [mkR TDouble 0 (Some (2, 3)); mkR TBool 1 None; mkR TInt 2 None] in
  session_ok av c85_s /\ session_writes_all c85_s /\ (forall o, In o av -> r_real c83_w o).
Proof.
  cbv zeta. split; [|split].
  - cbn. assert (V : forall o : robj, True) by auto. repeat split; auto; try (intros x Hx; cbn in Hx; intuition (subst; cbn; auto)); try (repeat constructor; cbn; intuition congruence).
    all: try (intros Hx; cbn in Hx; intuition congruence).
  - cbn. repeat split; auto. intros [o|]; cbn; auto. repeat split; auto. intros [o'|]; cbn; auto.
  - intros o [<-|[<-|[<-|[]]]].
    + exists (map (fun z => VD (i2f z)) [1; 2; 3; 4; 5; 6]). split; [reflexivity|]. repeat constructor.
    + exists [VI 1; VI (- 2 ^ 31)]. split; [reflexivity|]. repeat constructor.
    + exists [VI 4; VI 5]. split; [reflexivity|]. repeat constructor.
Qed.
Example c85_ex_run : forall lm, exists w', run_session 5 lm c85_s c83_w = (inl tt, w') /\
  hblk (hp w') 0%nat = c83_blk 0 /\
  exists a, hblk (hp w') a = Live OwnR (map Some (map (fun z => VD (i2f z)) [56; 16; 56; 32; 56; 48])).
Proof. intros lm. eexists. split; [vm_compute; reflexivity|]. split; [reflexivity|]. exists 9%nat. vm_compute. reflexivity. Qed.
