(** Property C91: functions called from R that leave loops and scopes by
    return, break and continue. *)
From Coq Require Import ZArith List String Bool Lia Reals.
From Verif Require Import Base Num FloatBridge StoreModel VecModel SubsetModel AllocModel ProgModel LangModel OutModel ForeignModel CallModel JumpModel
  Spec SpecExpr SpecHist SpecProg SpecSub SpecAlloc SpecCons SpecStmt SpecMat SpecMul SpecOut SpecForeign SpecSafe SpecLang SpecCall SpecSession SpecFn SpecJump
  StoreProofs StoreThms VecProofs VecEval SubsetThms ProgProofs ProgProofs2 ProgThms MatProofs MatThms HideProofs MulProofs AvProofs ForeignProofs CallProofs FnProofs Examples JumpProofs JumpThms PropCall.
Import ListNotations.
Open Scope Z_scope.
Local Notation length := List.length (only parsing).

(** A function does what its body means: a return leaves all loops and scopes at
    once, break the innermost loop, continue the round.  A result is a new R
    object; the memory of R is as before; when the call has ended no vector and no
    allocation is left, whichever scopes were left in between. *)
Theorem c91_call : forall N lm ty ps b (s : mstate) r s' w, at_rest w -> NoDup (map p_name ps) ->
  (forall p, In p ps -> ty (p_name p) = p_type p) -> Forall (passed w s) ps ->
  jsem N lm ty (hlim (hp w)) [] (map p_name ps) b s r s' ->
  exists out w', jcall N lm ps b w = (out, w') /\ jends_with w w' out r /\ foreign_kept w w' /\
    (r <> JMore -> at_rest w' /\ hlim (hp w') = hlim (hp w)).
Proof.
  intros N lm ty ps b s r s' w AR ND TY PA X.
  destruct (jcall_follows N lm ty _ ps b s r s' w AR eq_refl ND TY PA X) as [out [w' [E F]]].
  exists out, w'. split; [exact E|]. eapply jended_seen; eauto.
Qed.
Print Assumptions c91_call.

(** Memory safety, for all bodies the compiler accepts and all R objects: only
    arithmetic and the reading of an element that was not written can be
    undefined.  Break and continue do not leave the function; if every way
    through the body ends with return, the function does not end without one. *)
Theorem c91_safe : forall N lm ps b w r w', at_rest w -> hlim (hp w) < 2 ^ 31 -> NoDup (map p_name ps) ->
  scoped_j false (rev (map p_name ps)) (rev (map p_name ps)) b -> (forall p, In p ps -> r_real w (p_obj p)) ->
  jcall N lm ps b w = (r, w') ->
  foreign_kept w w' /\
  match r with
  | Done (Gave o) => at_rest w' /\ hlim (hp w') < 2 ^ 31 /\ r_real w' o
  | Done Next => ~ returns b /\ at_rest w' /\ hlim (hp w') < 2 ^ 31
  | Thrown (Ass _) => at_rest w' /\ hlim (hp w') < 2 ^ 31
  | Done Broke | Done Again => False
  | Done More | Thrown BadAlloc => True
  | Undef u => arithmetic u \/ u = UB_uninit
  end.
Proof.
  intros N lm ps b w r w' AR HL ND Sc Re E.
  pose proof (jcall_safe false N lm ps b w AR HL ND Sc ltac:(discriminate) Re) as Q. rewrite E in Q.
  destruct Q as [FK Q]. split; [exact FK|]. destruct r as [[| | |o|]|[m|]|u]; auto. destruct Q as [Q|[_ Q]]; auto.
Qed.
Print Assumptions c91_safe.

Theorem c91_written : forall N lm ps b w u w', at_rest w -> hlim (hp w) < 2 ^ 31 -> NoDup (map p_name ps) ->
  scoped_j false (rev (map p_name ps)) (rev (map p_name ps)) b -> writes_all_j b -> (forall p, In p ps -> r_real w (p_obj p)) ->
  jcall N lm ps b w = (Undef u, w') -> arithmetic u.
Proof.
  intros N lm ps b w u w' AR HL ND Sc Wr Re E.
  pose proof (jcall_safe true N lm ps b w AR HL ND Sc (fun _ => Wr) Re) as Q. rewrite E in Q.
  destruct Q as [_ [Q|[Q _]]]; [exact Q|discriminate].
Qed.
Print Assumptions c91_written.

(** With more rounds a call that has ended ends in the same way. *)
Theorem c91_rounds : forall N N' lm ps b w o w', (N <= N')%nat -> jcall N lm ps b w = (o, w') -> o <> Done More ->
  jcall N' lm ps b w = (o, w').
Proof. intros N N' lm ps b w o w' L. now apply jcall_more. Qed.
Print Assumptions c91_rounds.

(** The functions of C83 do the same when they are read as functions of this
    kind. *)
Theorem c91_functions : forall N lm ps b w o w', call N lm ps b w = (o, w') ->
  jcall N lm ps (of_fbody b) w =
    (match o with Done (Some r) => Done (Gave r) | Done None => Done More | Thrown e => Thrown e | Undef u => Undef u end, w').
Proof. intros N lm ps b w o w' E. rewrite (call_flow N lm ps b w), E. destruct o as [[r|]|e|u]; reflexivity. Qed.
Print Assumptions c91_functions.

(* ---------------------------------------- two functions, for all R vectors *)

Definition the_dbl (v : val) : flt := match v with VD f => f | _ => fzero end.
(** SEXP f(SEXP xr) { Vec<double> x; x = xr;
      for (double v : coca(x)) { if (0.0 < v) { Vec<double> y = coca(v); return cpp2R(y); } }
      return cpp2R(x); } *)
Definition first_fn : jstmt :=
  JSeq (JFor 1 (LMCoca [LV TDouble (LVar 0)]) (fun v =>
          JIf (LBin OLt (LLit (VD fzero)) (LLit v)) (JLet 2 3 TDouble (LMCoca [LS (VD (the_dbl v))]) (JRet TDouble (LVar 2))) (JDo LSkip)))
       (JRet TDouble (LVar 0)).

(** SEXP f(SEXP xr) { Vec<double> x; x = xr; Vec<double> y = coca(0.0);
      for (auto v : coca(x)) { if (v < 0.0) break; if (v < 1.0) continue; y = y + v; }
      return cpp2R(y); } *)
Definition sum_fn : jstmt :=
  JLet 1 2 TDouble (LMCoca [LS (VD fzero)])
    (JSeq (JFor 3 (LMCoca [LV TDouble (LVar 0)]) (fun v =>
             JSeq (JIf (LBin OLt (LLit v) (LLit (VD fzero))) JBreak (JDo LSkip))
            (JSeq (JIf (LBin OLt (LLit v) (LLit (VD fone))) JContinue (JDo LSkip))
                  (JDo (LAssign 1 (LBin OPlus (LVar 1) (LLit v)))))))
          (JRet TDouble (LVar 1))).

(** What they compute. *)
Definition first_pos (l : list flt) : option flt := find (fun f => flt_ltb fzero f) l.
Fixpoint sum_of (acc : flt) (l : list flt) : flt :=
  match l with
  | [] => acc
  | v :: r => if flt_ltb v fzero then acc else if flt_ltb v fone then sum_of acc r else sum_of (fadd acc v) r
  end.

Section Two.
Variables (N : nat) (lm : libm) (ty : nat -> ety) (lim : Z).

Lemma lt_value V (s : mstate) a b : exists v, lvalue lm V s (LBin OLt (LLit (VD a)) (LLit (VD b))) (Done v) /\ truth v = flt_ltb a b.
Proof.
  exists (read (EBin OLt (ESca (VD a)) (ESca (VD b))) (VB (flt_ltb a b))). split.
  - exists (Done (EBin OLt (ESca (VD a)) (ESca (VD b)))). split; [|split].
    + exists (Done (ESca (VD a))), (Done (ESca (VD b))). repeat split.
    + intros e' [= <-]. split; [cbn; repeat split; lia|vm_compute; discriminate].
    + reflexivity.
  - destruct (flt_ltb a b); vm_compute; reflexivity.
Qed.
Lemma coca_lit V rho sh f : 2 <= lim -> lcreates lm V lim rho sh (LMCoca [LS (VD f)]) TDouble [VD f] None.
Proof.
  intros L. split; [cbn; lia|]. exists [[VD f]]. split; [constructor; [reflexivity|constructor]|].
  split; [constructor; [intros u [<-|[]]; reflexivity|constructor]|]. split; [exists (LS (VD f)); split; [now left|reflexivity]|].
  split; [intros a [<-|[]]; cbn; lia|]. split; [repeat constructor|]. split; [discriminate|]. split; [cbn; lia|reflexivity].
Qed.
Lemma coca_var V rho sh x l : In x V -> rho x = map VD l -> l <> [] -> Z.of_nat (length l) < 2 ^ 31 -> 2 * Z.of_nat (length l) <= lim ->
  lcreates lm V lim rho sh (LMCoca [LV TDouble (LVar x)]) TDouble (map VD l) None.
Proof.
  intros Vx E Nl B L. split; [now rewrite map_length|]. exists [map VD l]. split.
  { constructor; [|constructor]. exists (EVar x). split; [split; [exact Vx|reflexivity]|]. split; [exact I|]. split; [cbn [xsize]; now rewrite E|].
    intros i Li. cbn [xval]. rewrite E. unfold pick_val. rewrite Nat2Z.id. now rewrite (nth_error_nth' _ (VB false) Li). }
  split; [constructor; [|constructor]; intros u Hu; apply in_map_iff in Hu; destruct Hu as [f [<- _]]; reflexivity|].
  split; [exists (LV TDouble (LVar x)); split; [now left|reflexivity]|]. split; [intros a [<-|[]]; cbn; lia|].
  split; [cbn [List.concat]; rewrite app_nil_r; clear; induction l; cbn; constructor; auto|].
  split; [destruct l; [contradiction|discriminate]|]. split; [now rewrite map_length|reflexivity].
Qed.
Lemma jret_sem H V (s : mstate) x l d : In x V -> fst s x = map VD l -> snd s x = d -> Z.of_nat (length l) < 2 ^ 31 -> Z.of_nat (length l) <= lim ->
  (forall nr nc, d = Some (nr, nc) -> 0 <= nr < 2 ^ 31 /\ 0 <= nc < 2 ^ 31 /\ nr * nc = Z.of_nat (length l)) ->
  jsem N lm ty lim H V (JRet TDouble (LVar x)) s (JGave TDouble (map VD l) d) s.
Proof.
  intros Vx E D B L Dm. cbn [jsem]. exists (Done (EVar x)). split; [split; [exact Vx|reflexivity]|]. cbn [jgiven].
  split; [reflexivity|]. exists (Given TDouble (map VD l) d). split; [|reflexivity].
  unfold back. cbn [wf_expr xsize xdims]. rewrite E, D, map_length. split; [exact I|]. split; [exact B|]. split; [exact L|].
  split; [intros nr nc Q; destruct (Dm nr nc Q); tauto|].
  replace (match d with Some (nr, nc) => nr * nc =? Z.of_nat (length l) | None => true end) with true.
  2:{ destruct d as [[nr nc]|]; [|reflexivity]. symmetry. apply Z.eqb_eq. now apply Dm. }
  rewrite (value_of_done lm (fst s) (in_R TDouble) (EVar x) (map VD l)); [reflexivity|]. apply value_var. rewrite E.
  clear. induction l; cbn; constructor; auto.
Qed.

Lemma first_sem (s : mstate) l d : ty 2%nat = TDouble -> fst s 0%nat = map VD l -> snd s 0%nat = d -> l <> [] -> Z.of_nat (length l) < 2 ^ 31 ->
  2 * Z.of_nat (length l) <= lim ->
  (forall nr nc, d = Some (nr, nc) -> 0 <= nr < 2 ^ 31 /\ 0 <= nc < 2 ^ 31 /\ nr * nc = Z.of_nat (length l)) ->
  exists s', jsem N lm ty lim [] [0%nat] first_fn s
    (match first_pos l with Some v => JGave TDouble [VD v] None | None => JGave TDouble (map VD l) d end) s'.
Proof.
  intros T2 E D Nl B L Dm.
  assert (L2 : 2 <= lim) by (destruct l; [contradiction|cbn [length] in L; lia]).
  assert (F : forall l', exists s1, jfor (map VD l') (fun v => jsem N lm ty lim [1%nat] [0%nat]
      (JIf (LBin OLt (LLit (VD fzero)) (LLit v)) (JLet 2 3 TDouble (LMCoca [LS (VD (the_dbl v))]) (JRet TDouble (LVar 2))) (JDo LSkip))) s
      (match first_pos l' with Some v => JGave TDouble [VD v] None | None => JNext end) s1 /\ (first_pos l' = None -> s1 = s)).
  { induction l' as [|v l' IH].
    - exists s. cbn. auto.
    - cbn [map jfor first_pos find]. destruct (lt_value [0%nat] s fzero v) as [b [Vb Tb]]. rewrite <- Tb. destruct (truth b) eqn:Eb.
      + eexists. split; [|discriminate]. eexists (JGave TDouble [VD v] None), _. split.
        * cbn [jsem]. exists (Done b). split; [exact Vb|]. cbn [jgiven]. rewrite Eb. exists [VD v], None.
          split; [cbn; intuition congruence|]. split; [cbn; intuition congruence|]. split; [discriminate|]. split; [exact T2|].
          split; [now apply coca_lit|].
          apply (jret_sem [1%nat] [2; 0]%nat _ 2 [v] None); [now left|cbn [fst]; apply setl_same|cbn [snd]; apply setd_same|cbn; lia|cbn; lia|discriminate].
        * cbn [jafter]. split; reflexivity.
      + destruct IH as [s1 [X Y]]. exists s1. split; [|exact Y]. exists JNext, s. split.
        * cbn [jsem]. exists (Done b). split; [exact Vb|]. cbn [jgiven]. rewrite Eb. exists Ended. cbn. auto.
        * cbn [jafter]. exact X. }
  destruct (F l) as [s1 [X Y]]. unfold first_fn. cbn [jsem].
  destruct (first_pos l) as [v|] eqn:Ef.
  - exists s1. exists (JGave TDouble [VD v] None), s1. split; [|split; reflexivity]. exists TDouble, (map VD l), None. split; [cbn; intuition congruence|].
    split; [apply coca_var; auto; now left|]. exact X.
  - exists s. exists JNext, s. rewrite (Y eq_refl) in X. split.
    + exists TDouble, (map VD l), None. split; [cbn; intuition congruence|]. split; [apply coca_var; auto; now left|]. exact X.
    + apply (jret_sem [] [0%nat] s 0 l d); auto; [now left|lia].
Qed.

Lemma sum_sem (s : mstate) l : ty 1%nat = TDouble -> fst s 0%nat = map VD l -> l <> [] -> Z.of_nat (length l) < 2 ^ 31 ->
  2 * Z.of_nat (length l) <= lim ->
  exists s', jsem N lm ty lim [] [0%nat] sum_fn s (JGave TDouble [VD (sum_of fzero l)] None) s'.
Proof.
  intros T1 E Nl B L.
  assert (L2 : 2 <= lim) by (destruct l; [contradiction|cbn [length] in L; lia]).
  assert (F : forall l' (t : mstate) acc, fst t 1%nat = [VD acc] -> snd t 1%nat = None ->
      exists t1, jfor (map VD l') (fun v => jsem N lm ty lim [3%nat] [1; 0]%nat
        (JSeq (JIf (LBin OLt (LLit v) (LLit (VD fzero))) JBreak (JDo LSkip))
        (JSeq (JIf (LBin OLt (LLit v) (LLit (VD fone))) JContinue (JDo LSkip))
              (JDo (LAssign 1 (LBin OPlus (LVar 1) (LLit v))))))) t JNext t1 /\
      fst t1 1%nat = [VD (sum_of acc l')] /\ snd t1 1%nat = None).
  { induction l' as [|v l' IH]; intros t acc Et Dt.
    - exists t. cbn. auto.
    - cbn [map jfor sum_of]. destruct (lt_value [1; 0]%nat t v fzero) as [b [Vb Tb]]. rewrite <- Tb. destruct (truth b) eqn:Eb.
      { exists t. split; [|auto]. exists JBroke, t. split; [|cbn; auto]. cbn [jsem]. exists JBroke, t. split; [|split; reflexivity].
        exists (Done b). split; [exact Vb|]. cbn [jgiven]. rewrite Eb. split; reflexivity. }
      destruct (lt_value [1; 0]%nat t v fone) as [c [Vc Tc]]. rewrite <- Tc. destruct (truth c) eqn:Ec.
      { destruct (IH t acc Et Dt) as [t1 [X Y]]. exists t1. split; [|exact Y]. exists JAgain, t. split; [|exact X]. cbn [jsem].
        exists JNext, t. split; [exists (Done b); split; [exact Vb|]; cbn [jgiven]; rewrite Eb; exists Ended; split; [split; reflexivity|reflexivity]|].
        exists JAgain, t. split; [|split; reflexivity]. exists (Done c). split; [exact Vc|]. cbn [jgiven]. rewrite Ec. split; reflexivity. }
      destruct (IH (setl (fst t) 1 [VD (fadd acc v)], setd (snd t) 1%nat None) (fadd acc v)) as [t1 [X Y]];
        [cbn [fst]; apply setl_same|cbn [snd]; apply setd_same|].
      exists t1. split; [|exact Y]. eexists JNext, _. split; [|exact X]. cbn [jsem].
      exists JNext, t. split; [exists (Done b); split; [exact Vb|]; cbn [jgiven]; rewrite Eb; exists Ended; split; [split; reflexivity|reflexivity]|].
      exists JNext, t. split; [exists (Done c); split; [exact Vc|]; cbn [jgiven]; rewrite Ec; exists Ended; split; [split; reflexivity|reflexivity]|].
      exists Ended. split; [|reflexivity]. cbn [lsem]. exists (Done (EBin OPlus (EVar 1) (ESca (VD v)))). split.
      { exists (Done (EVar 1)), (Done (ESca (VD v))). split; [split; [now left|reflexivity]|]. split; reflexivity. }
      cbn [given]. assert (XS : xsize (fst t) (EBin OPlus (EVar 1) (ESca (VD v))) = 1) by (cbn; rewrite Et; reflexivity).
      assert (VL : value lm (fst t) TDouble (EBin OPlus (EVar 1) (ESca (VD v))) = Done [VD (fadd acc v)]).
      { unfold value. rewrite XS. change (zseq 0 (Z.to_nat 1)) with [0]. cbn [omap xval xsize]. rewrite Et. reflexivity. }
      unfold does. cbn [cmd_wf spec_cmd shapes_after]. rewrite XS, T1, VL. cbn [fst snd].
      split; [split; [now left|split; [intros x Hx; cbn in Hx; destruct Hx as [<-|[]]; now left|]]|].
      { split; [cbn; rewrite Et; cbn; repeat split; lia|]. split; [vm_compute; discriminate|lia]. }
      split; [reflexivity|]. cbn [xdims]. rewrite Dt. reflexivity. }
  destruct (F l (setl (fst s) 1 [VD fzero], setd (snd s) 1%nat None) fzero) as [t1 [X [Y1 Y2]]];
    [cbn [fst]; apply setl_same|cbn [snd]; apply setd_same|].
  exists t1. unfold sum_fn. cbn [jsem]. exists [VD fzero], None.
  split; [cbn; intuition congruence|]. split; [cbn; intuition congruence|]. split; [discriminate|]. split; [exact T1|].
  split; [now apply coca_lit|]. exists JNext, t1. split.
  - exists TDouble, (map VD l), None. split; [cbn; intuition congruence|]. split; [|exact X].
    apply coca_var; [now right; left| |exact Nl|exact B|exact L]. cbn [fst]. rewrite setl_other by discriminate. exact E.
  - apply (jret_sem [] [1; 0]%nat t1 1 [sum_of fzero l] None); auto; [now left|cbn; lia|cbn; lia|discriminate].
Qed.
End Two.

(** The search: the first positive element, or the argument with its
    dimensions if there is none; for all R vectors of numbers, NaN and infinities
    included. *)
Theorem c91_first : forall N lm w r l, at_rest w -> r_has w r (map VD l) -> r_ty r = TDouble -> l <> [] ->
  (forall nr nc, r_dim r = Some (nr, nc) -> 0 <= nr < 2 ^ 31 /\ 0 <= nc < 2 ^ 31 /\ nr * nc = Z.of_nat (length l)) ->
  2 * Z.of_nat (length l) <= hlim (hp w) ->
  exists o w', jcall N lm [mkP 0 TDouble r] first_fn w = (Done (Gave o), w') /\ r_ty o = TDouble /\
    match first_pos l with
    | Some v => r_dim o = None /\ hblk (hp w') (r_mem o) = Live OwnR [Some (VD v)]
    | None => r_dim o = r_dim r /\ hblk (hp w') (r_mem o) = Live OwnR (map Some (map VD l))
    end /\
    hblk (hp w) (r_mem o) = Unused /\ foreign_kept w w' /\ at_rest w' /\ hlim (hp w') = hlim (hp w).
Proof.
  intros N lm w r l AR [RH RL] TY Nl Dm L.
  assert (B : Z.of_nat (length l) < 2 ^ 31) by (rewrite map_length in RL; unfold int_max in RL; lia).
  pose (s := ((fun _ => map VD l, fun _ => r_dim r) : mstate)).
  destruct (first_sem N lm (fun _ => TDouble) (hlim (hp w)) s l (r_dim r) eq_refl eq_refl eq_refl Nl B L Dm) as [s' X].
  destruct (c91_call N lm (fun _ => TDouble) [mkP 0 TDouble r] first_fn s (match first_pos l with Some v => JGave TDouble [VD v] None | None => JGave TDouble (map VD l) (r_dim r) end) s' w AR) as [out [w' [E [EW [FK RE]]]]].
  - repeat constructor. intros [].
  - intros p [<-|[]]. reflexivity.
  - apply Forall_cons; [|apply Forall_nil]. exists (map VD l). split; [now split|]. split; [exact TY|].
    split; [cbn; clear; induction l; cbn; constructor; auto|]. split; [reflexivity|]. rewrite map_length. lia.
  - exact X.
  - destruct (first_pos l) as [v|]; destruct EW as [o [-> [T [D [Hb U]]]]]; exists o, w'; (split; [exact E|]); (split; [exact T|]);
      (split; [split; [exact D|exact Hb]|]); (split; [exact U|]); (split; [exact FK|]); apply RE; discriminate.
Qed.
Print Assumptions c91_first.

(** The sum of the elements that are not less than 1, up to the first negative
    one. *)
Theorem c91_sum : forall N lm w r l, at_rest w -> r_has w r (map VD l) -> r_ty r = TDouble -> l <> [] ->
  2 * Z.of_nat (length l) <= hlim (hp w) ->
  exists o w', jcall N lm [mkP 0 TDouble r] sum_fn w = (Done (Gave o), w') /\ r_ty o = TDouble /\ r_dim o = None /\
    hblk (hp w') (r_mem o) = Live OwnR [Some (VD (sum_of fzero l))] /\
    hblk (hp w) (r_mem o) = Unused /\ foreign_kept w w' /\ at_rest w' /\ hlim (hp w') = hlim (hp w).
Proof.
  intros N lm w r l AR [RH RL] TY Nl L.
  assert (B : Z.of_nat (length l) < 2 ^ 31) by (rewrite map_length in RL; unfold int_max in RL; lia).
  pose (s := ((fun _ => map VD l, fun _ => r_dim r) : mstate)).
  destruct (sum_sem N lm (fun _ => TDouble) (hlim (hp w)) s l eq_refl eq_refl Nl B L) as [s' X].
  destruct (c91_call N lm (fun _ => TDouble) [mkP 0 TDouble r] sum_fn s (JGave TDouble [VD (sum_of fzero l)] None) s' w AR) as [out [w' [E [EW [FK RE]]]]].
  - repeat constructor. intros [].
  - intros p [<-|[]]. reflexivity.
  - apply Forall_cons; [|apply Forall_nil]. exists (map VD l). split; [now split|]. split; [exact TY|].
    split; [cbn; clear; induction l; cbn; constructor; auto|]. split; [reflexivity|]. rewrite map_length. lia.
  - exact X.
  - destruct EW as [o [-> [T [D [Hb U]]]]]. exists o, w'. split; [exact E|]. split; [exact T|]. split; [exact D|].
    split; [exact Hb|]. split; [exact U|]. split; [exact FK|]. apply RE. discriminate.
Qed.
Print Assumptions c91_sum.

(** The hypotheses of c91_first and c91_sum are met by the 2 x 3 matrix of C83;
    the model run. *)
Example c91_ex : forall N lm, exists o w1 o' w2,
  jcall N lm [mkP 0 TDouble (mkR TDouble 0 (Some (2, 3)))] first_fn c83_w = (Done (Gave o), w1) /\
  hblk (hp w1) (r_mem o) = Live OwnR [Some (VD (i2f 1))] /\ at_rest w1 /\
  jcall N lm [mkP 0 TDouble (mkR TDouble 0 (Some (2, 3)))] sum_fn c83_w = (Done (Gave o'), w2) /\
  hblk (hp w2) (r_mem o') = Live OwnR [Some (VD (i2f 21))] /\ at_rest w2.
Proof.
  intros N lm.
  assert (RH : r_has c83_w (mkR TDouble 0 (Some (2, 3))) (map VD (map i2f [1; 2; 3; 4; 5; 6]))) by (split; [reflexivity|vm_compute; discriminate]).
  destruct (c91_first N lm c83_w _ _ c83_rest RH eq_refl ltac:(discriminate)) as [o [w1 [E [_ [[_ Hb] [_ [_ [AR _]]]]]]]];
    [intros nr nc [= <- <-]; cbn; lia|cbn; lia|].
  destruct (c91_sum N lm c83_w _ _ c83_rest RH eq_refl ltac:(discriminate)) as [o' [w2 [E' [_ [_ [Hb' [_ [_ [AR' _]]]]]]]]]; [cbn; lia|].
  exists o, w1, o', w2. split; [exact E|]. split; [exact Hb|]. split; [exact AR|]. split; [exact E'|]. split; [|exact AR'].
  rewrite Hb'. vm_compute. reflexivity.
Qed.
Example c91_sum_ex : sum_of fzero (map i2f [2; 0; 5; -1; 7]) = i2f 7 /\ first_pos (map i2f [-2; 0; 5; -1; 7]) = Some (i2f 5).
Proof. split; vm_compute; reflexivity. Qed.

(** The functions are accepted by the compiler; the second loop of the next one
    is left by a return in a scope in a loop in a loop. *)
Definition nest_fn : jstmt :=
  JSeq (JFor 1 (LMColon (LS (VI 1)) (LS (VI 3))) (fun i =>
          JWhile (LLit (VB true)) (JLet 2 3 TDouble (LMCoca [LV TDouble (LVar 0); LS i])
            (JIf (LBin OEq (LLit i) (LLit (VI 2))) (JRet TDouble (LVar 2)) JBreak))))
       (JRet TDouble (LVar 0)).
Example c91_safe_ex : (forall p, In p [mkP 0 TDouble (mkR TDouble 0 (Some (2, 3)))] -> r_real c83_w (p_obj p)) /\
  Forall (fun b => scoped_j false [0%nat] [0%nat] b /\ writes_all_j b /\ returns b) [first_fn; sum_fn; nest_fn] /\ hlim (hp c83_w) < 2 ^ 31.
Proof.
  split; [|split].
  - intros p [<-|[]]. exists (map (fun z => VD (i2f z)) [1; 2; 3; 4; 5; 6]). split; [reflexivity|]. repeat constructor.
  - repeat apply Forall_cons; [| | |apply Forall_nil]; (split; [|split; [cbn; auto|]]).
    all: cbn; unfold incl; cbn; intuition (try congruence; auto).
  - vm_compute. reflexivity.
Qed.
Example c91_nest_run : forall lm, exists w', jcall 2 lm [mkP 0 TDouble (mkR TDouble 0 (Some (2, 3)))] nest_fn c83_w = (Done (Gave (mkR TDouble 7 None)), w') /\
  hblk (hp w') 7%nat = Live OwnR (map Some (map (fun z => VD (i2f z)) [1; 2; 3; 4; 5; 6; 2])) /\
  (forall a, (3 <= a < 7)%nat -> hblk (hp w') a = Freed).
Proof.
  intros lm. eexists. split; [vm_compute; reflexivity|]. split; [vm_compute; reflexivity|].
  intros a La. do 7 (destruct a as [|a]; [try lia; vm_compute; reflexivity|]). lia.
Qed.
