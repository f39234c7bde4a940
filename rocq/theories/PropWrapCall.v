(** Property C93: functions called from R that use the memory of R objects
    instead of copies of them. *)
From Coq Require Import ZArith List String Bool Lia.
From Verif Require Import Base Num FloatBridge StoreModel VecModel SubsetModel AllocModel ProgModel LangModel OutModel ForeignModel CallModel JumpModel WrapCallModel
  Spec SpecExpr SpecHist SpecOut SpecForeign SpecSafe SpecLang SpecCall SpecSession SpecStatic SpecFn SpecJump SpecWrapCall
  SubsetProofs StoreProofs StoreThms VecProofs OutProofs AvProofs MulProofs ForeignProofs CallProofs FnProofs JumpProofs WrapCallProofs Examples PropCall.
Import ListNotations.
Open Scope Z_scope.
Local Notation length := List.length (only parsing).

(** Memory safety of a call, for all bodies the compiler accepts that do not
    assign a whole value to a wrapping parameter or resize it, and all R objects
    of which the wrapped ones have elements; one object may be given to several
    parameters, wrapped or not.  R's memory that is not wrapped is as before;
    wrapped memory is R's and as long as before; nothing is left when the call
    has ended, also by an exception. *)
Theorem c93_safe_partial : forall N lm ps b w r w', at_rest w -> hlim (hp w) < 2 ^ 31 -> wcall_ok ps b ->
  (forall p, In p ps -> r_real w (w_obj p) /\ (wraps p = true -> nonempty w (w_obj p))) ->
  wcall N lm ps b w = (r, w') ->
  unwrapped_kept ps w w' /\
  match r with
  | Done (Gave o) => at_rest w' /\ hlim (hp w') < 2 ^ 31 /\ r_real w' o /\ lengths_kept w w'
  | Done Next => ~ returns b /\ at_rest w' /\ hlim (hp w') < 2 ^ 31 /\ lengths_kept w w'
  | Thrown (Ass _) => at_rest w' /\ hlim (hp w') < 2 ^ 31 /\ lengths_kept w w'
  | Done Broke | Done Again => False
  | Done More | Thrown BadAlloc => True
  | Undef u => arithmetic u \/ u = UB_uninit
  end.
Proof.
  intros N lm ps b w r w' AR HL OK RE E.
  pose proof (wcall_safe false N lm ps b w AR HL OK ltac:(discriminate) RE) as Q. rewrite E in Q. destruct Q as [U [W _]].
  split; [exact U|].
  pose proof (fun H => wcall_lengths false N lm ps b w AR HL OK ltac:(discriminate) RE r w' E H) as Ln.
  destruct r as [[| | |o|]|[m|]|u]; cbn [wends over] in *; auto.
  - destruct W as [W1 [W2 W3]]. auto.
  - destruct W as [W1 [W2 W3]]. auto.
  - destruct W as [W1 W2]. auto.
  - destruct W as [W|[_ W]]; auto.
Qed.
Print Assumptions c93_safe_partial.

Theorem c93_written_partial : forall N lm ps b w u w', at_rest w -> hlim (hp w) < 2 ^ 31 -> wcall_ok ps b -> writes_all_j b ->
  (forall p, In p ps -> r_real w (w_obj p) /\ (wraps p = true -> nonempty w (w_obj p))) ->
  wcall N lm ps b w = (Undef u, w') -> arithmetic u.
Proof.
  intros N lm ps b w u w' AR HL OK WR RE E.
  pose proof (wcall_safe true N lm ps b w AR HL OK (fun _ => WR) RE) as Q. rewrite E in Q. destruct Q as [_ [[W|[W _]] _]]; [exact W|discriminate].
Qed.
Print Assumptions c93_written_partial.

(** What is written into R's memory are elements of its type: when the call has
    ended every object of R is one, the wrapped ones too. *)
Theorem c93_objects_partial : forall N lm ps b w r w', at_rest w -> hlim (hp w) < 2 ^ 31 -> wcall_ok ps b ->
  (forall p, In p ps -> r_real w (w_obj p) /\ (wraps p = true -> nonempty w (w_obj p))) -> cells_typed w ->
  wcall N lm ps b w = (r, w') ->
  match r with
  | Done (Gave _) | Done Next | Thrown (Ass _) => cells_typed w' /\ forall o, r_real w o -> r_real w' o
  | _ => True
  end.
Proof.
  intros N lm ps b w r w' AR HL OK RE CT E.
  pose proof (fun H => wcall_real false N lm ps b w AR HL OK ltac:(discriminate) RE r w' CT E H) as Q.
  destruct r as [[| | |o|]|[m|]|u]; cbn [over] in Q; auto.
Qed.
Print Assumptions c93_objects_partial.

(* ---------------------------------------------------------------- sessions *)

Lemma lengths_trans w1 w2 w3 : lengths_kept w1 w2 -> lengths_kept w2 w3 -> lengths_kept w1 w3.
Proof.
  intros A B a own cs NO Ha. destruct (A a own cs NO Ha) as [c2 [H2 L2]]. destruct (B a own c2 NO H2) as [c3 [H3 L3]].
  exists c3. split; [exact H3|congruence].
Qed.
Lemma nonempty_kept w w' r : lengths_kept w w' -> r_real w r -> nonempty w r -> nonempty w' r.
Proof.
  intros Ln [xs [Hb _]] Ne own cs Hc. destruct (Ln _ OwnR _ ltac:(discriminate) Hb) as [c2 [H2 L2]]. rewrite Hc in H2. injection H2 as -> ->.
  intros ->. apply (Ne _ _ Hb). destruct (map Some xs); [reflexivity|discriminate].
Qed.

(** Any number of calls, which may depend on the results of those before and
    may be given them. *)
Lemma wsession_safe i N lm s : forall av nv w, at_rest w -> hlim (hp w) < 2 ^ 31 -> cells_typed w -> wsession_ok av nv s ->
  (i = true -> wsession_writes_all s) ->
  (forall o, In o av -> r_real w o) -> (forall o, In o nv -> In o av /\ nonempty w o) ->
  let (r, w') := run_wsession N lm s w in
  match r with
  | inl _ => at_rest w' /\ cells_typed w' /\ lengths_kept w w' /\ (forall o, In o av -> r_real w' o)
  | inr (Undef u) => allowed i u
  | inr (Done Next) | inr (Done Broke) | inr (Done Again) => False
  | inr _ => True
  end.
Proof.
  induction s as [|ps b k IH]; intros av nv w AR HL CT Ok Wr Re Ne; cbn [run_wsession wsession_ok wsession_writes_all] in *.
  - split; [exact AR|]. split; [exact CT|]. split; [|exact Re]. intros a own cs _ Ha. now exists cs.
  - destruct Ok as [OK [RT [Ia [KN KS]]]].
    assert (RE : forall p, In p ps -> r_real w (w_obj p) /\ (wraps p = true -> nonempty w (w_obj p))).
    { intros p Hp. destruct (Ia p Hp) as [H1 H2]. split; [now apply Re|]. intros Hw. now apply Ne, H2. }
    pose proof (wcall_safe i N lm ps b w AR HL OK (fun E => proj1 (Wr E)) RE) as Q.
    pose proof (wcall_lengths i N lm ps b w AR HL OK (fun E => proj1 (Wr E)) RE) as Ln.
    pose proof (fun r w' => wcall_real i N lm ps b w AR HL OK (fun E => proj1 (Wr E)) RE r w' CT) as Rl.
    destruct (wcall N lm ps b w) as [r w1]. specialize (Ln r w1 eq_refl). specialize (Rl r w1 eq_refl).
    destruct Q as [_ [Q _]].
    destruct r as [[| | |o|]|[m|]|u]; cbn [wends over] in *; auto.
    + now apply Q.
    + destruct Q as [A1 [L1 R1]]. specialize (Ln eq_refl). destruct (Rl eq_refl) as [C1 R2].
      assert (IH1 := IH (Some o) (o :: av) nv w1 A1 L1 C1 (KS o) (fun E => proj2 (Wr E) (Some o))).
      assert (Re1 : forall r, In r (o :: av) -> r_real w1 r) by (intros r [<-|Hr]; [exact R1|]; now apply R2, Re).
      assert (Ne1 : forall r, In r nv -> In r (o :: av) /\ nonempty w1 r).
      { intros r Hr. destruct (Ne r Hr) as [H1 H2]. split; [now right|]. eapply nonempty_kept; eauto. }
      specialize (IH1 Re1 Ne1). destruct (run_wsession N lm (k (Some o)) w1) as [r w2]. destruct r as [|[[| | |o2|]|[m|]|u]]; auto.
      destruct IH1 as [A2 [C2 [L2 R3]]]. split; [exact A2|]. split; [exact C2|]. split; [eapply lengths_trans; eauto|]. intros r Hr. apply R3. now right.
    + destruct Q as [A1 L1]. specialize (Ln eq_refl). destruct (Rl eq_refl) as [C1 R2].
      assert (IH1 := IH None av nv w1 A1 L1 C1 KN (fun E => proj2 (Wr E) None)).
      assert (Re1 : forall r, In r av -> r_real w1 r) by (intros r Hr; now apply R2, Re).
      assert (Ne1 : forall r, In r nv -> In r av /\ nonempty w1 r).
      { intros r Hr. destruct (Ne r Hr) as [H1 H2]. split; [exact H1|]. eapply nonempty_kept; eauto. }
      specialize (IH1 Re1 Ne1). destruct (run_wsession N lm (k None) w1) as [r w2]. destruct r as [|[[| | |o2|]|[m'|]|u]]; auto.
      destruct IH1 as [A2 [C2 [L2 R3]]]. split; [exact A2|]. split; [exact C2|]. split; [eapply lengths_trans; eauto|exact R3].
Qed.

Theorem c93_session_partial : forall N lm s av nv w r w', at_rest w -> hlim (hp w) < 2 ^ 31 -> cells_typed w -> wsession_ok av nv s ->
  (forall o, In o av -> r_real w o) -> (forall o, In o nv -> In o av /\ nonempty w o) ->
  run_wsession N lm s w = (r, w') ->
  match r with
  | inl _ => at_rest w' /\ cells_typed w' /\ lengths_kept w w' /\ (forall o, In o av -> r_real w' o)
  | inr (Undef u) => arithmetic u \/ u = UB_uninit
  | inr (Done Next) | inr (Done Broke) | inr (Done Again) => False
  | inr _ => True
  end.
Proof.
  intros N lm s av nv w r w' AR HL CT Ok Re Ne E.
  pose proof (wsession_safe false N lm s av nv w AR HL CT Ok ltac:(discriminate) Re Ne) as Q. rewrite E in Q.
  destruct r as [|[[| | |o2|]|[m|]|u]]; auto. destruct Q as [Q|[_ Q]]; auto.
Qed.
Print Assumptions c93_session_partial.

Theorem c93_session_written_partial : forall N lm s av nv w u w', at_rest w -> hlim (hp w) < 2 ^ 31 -> cells_typed w -> wsession_ok av nv s ->
  wsession_writes_all s -> (forall o, In o av -> r_real w o) -> (forall o, In o nv -> In o av /\ nonempty w o) ->
  run_wsession N lm s w = (inr (Undef u), w') -> arithmetic u.
Proof.
  intros N lm s av nv w u w' AR HL CT Ok Wr Re Ne E.
  pose proof (wsession_safe true N lm s av nv w AR HL CT Ok (fun _ => Wr) Re Ne) as Q. rewrite E in Q.
  destruct Q as [Q|[Q _]]; [exact Q|discriminate].
Qed.
Print Assumptions c93_session_written_partial.

(** An R object that no call of the session wraps is as at the beginning,
    whatever the calls do; also one that is passed by copy. *)
Theorem c93_unwrapped : forall N lm s w r w' a own cs, wsession_avoids a s -> at_rest w -> hlim (hp w) < 2 ^ 31 -> cells_typed w ->
  forall av nv, wsession_ok av nv s -> (forall o, In o av -> r_real w o) -> (forall o, In o nv -> In o av /\ nonempty w o) ->
  own <> OwnCpp -> hblk (hp w) a = Live own cs -> run_wsession N lm s w = (r, w') -> hblk (hp w') a = Live own cs.
Proof.
  intros N lm s. induction s as [|ps b k IH]; intros w r w' a own cs Av AR HL CT av nv Ok Re Ne NO Ha E; cbn [run_wsession wsession_ok wsession_avoids] in *.
  - now injection E as _ <-.
  - destruct Ok as [OK [RT [Ia [KN KS]]]]. destruct Av as [Av1 Av2].
    assert (RE : forall p, In p ps -> r_real w (w_obj p) /\ (wraps p = true -> nonempty w (w_obj p))).
    { intros p Hp. destruct (Ia p Hp) as [H1 H2]. split; [now apply Re|]. intros Hw. now apply Ne, H2. }
    pose proof (wcall_safe false N lm ps b w AR HL OK ltac:(discriminate) RE) as Q.
    pose proof (wcall_lengths false N lm ps b w AR HL OK ltac:(discriminate) RE) as Ln.
    pose proof (fun r w' => wcall_real false N lm ps b w AR HL OK ltac:(discriminate) RE r w' CT) as Rl.
    destruct (wcall N lm ps b w) as [r1 w1]. specialize (Ln r1 w1 eq_refl). specialize (Rl r1 w1 eq_refl).
    destruct Q as [U [Q _]]. assert (H1 : hblk (hp w1) a = Live own cs) by now apply U.
    destruct r1 as [[| | |o|]|[m|]|u]; cbn [wends over] in *; try (injection E as _ <-; exact H1).
    + destruct Q as [A1 [L1 R1]]. specialize (Ln eq_refl). destruct (Rl eq_refl) as [C1 R2].
      eapply (IH (Some o) w1 r w' a own cs (Av2 (Some o)) A1 L1 C1 (o :: av) nv (KS o)); auto.
      * intros q [<-|Hq]; [exact R1|]. now apply R2, Re.
      * intros q Hq. destruct (Ne q Hq) as [G1 G2]. split; [now right|]. eapply nonempty_kept; eauto.
    + destruct Q as [A1 L1]. specialize (Ln eq_refl). destruct (Rl eq_refl) as [C1 R2].
      eapply (IH None w1 r w' a own cs (Av2 None) A1 L1 C1 av nv KN); auto.
      intros q Hq. destruct (Ne q Hq) as [G1 G2]. split; [exact G1|]. eapply nonempty_kept; eauto.
Qed.
Print Assumptions c93_unwrapped.

(** Without wrapping parameters these are the calls of C91. *)
Theorem c93_copies : forall N lm b ps w, wcall N lm (map (mkW ByCopy) ps) b w = jcall N lm ps b w.
Proof.
  intros N lm b ps. induction ps as [|p ps IH]; intros w; [reflexivity|]. cbn [map wcall jcall].
  unfold bind. destruct (vec_default (p_name p) (p_type p) w) as [[[]|e|u] w1]; try reflexivity.
  unfold jscope. destruct (assign_R (p_name p) (p_obj p) w1) as [[[]|e|u] w2]; try reflexivity. now rewrite IH.
Qed.
Print Assumptions c93_copies.

(* ----------------------------------------------------------------- in place *)

Lemma wrap_done w x r xs : r_ty r = TDouble -> r_has w r xs ->
  vec_wrap x r w = (Done tt, set_ob (set_ob w (OD x) (mkStore KBorrowSEXP TDouble (Some (r_mem r)) (Z.of_nat (length xs)) (Z.of_nat (length xs)) true (r_shape r mp_none) false))
    (OT x) (store_default KBuffer TDouble)).
Proof.
  intros TY RH. unfold vec_wrap, sexp_wrap. rewrite r_is_same by exact TY.
  rewrite bind_assoc, bind_ass_true, bind_assoc, (bind_done _ _ _ _ _ (r_length_has w r xs RH)), bind_upd. reflexivity.
Qed.
Lemma end_wrap w x : kd (ob w (OD x)) = KBorrowSEXP -> todel (ob w (OD x)) = false -> kd (ob w (OT x)) = KBuffer -> ptr (ob w (OT x)) = None ->
  exists w', vec_end x w = (Done tt, w') /\ hp w' = hp w /\ forall o, o <> OD x -> o <> OT x -> ob w' o = ob w o.
Proof.
  intros K TD K2 P2. eexists. split.
  - unfold vec_end, vec_destroy, any_destroy. rewrite !bind_assoc, bind_st, K2. unfold destroy. rewrite bind_assoc, bind_st, P2, bind_ret.
    rewrite bind_assoc, bind_st, K. unfold sexp_destroy. rewrite bind_assoc, bind_st, TD, bind_ret, bind_upd. reflexivity.
  - split; [reflexivity|]. intros o N1 N2. rewrite !ob_set_other; auto.
Qed.

(** Two parameters that wrap one vector are one vector: what is written through
    the first is read through the second and is in R's object afterwards. *)
Definition alias_fn (x y : nat) (k : Z) (v : val) : jstmt := JSeq (JDo (LElem x k v)) (JRet TDouble (LVar y)).

Section Alias.
Variables (N : nat) (lm : libm) (w : world) (r : robj) (l : list flt) (x y k : nat) (v : flt).
Hypothesis AR : at_rest w.
Hypothesis RH : r_has w r (map VD l).
Hypothesis TY : r_ty r = TDouble.
Hypothesis DM : r_dim r = None.
Hypothesis NE : x <> y.
Hypothesis HK : (k < length l)%nat.
Hypothesis HL : Z.of_nat (length l) <= hlim (hp w).
Definition a_store : store := mkStore KBorrowSEXP TDouble (Some (r_mem r)) (Z.of_nat (length l)) (Z.of_nat (length l)) true (r_shape r mp_none) false.
Definition a_w (cs : list val) : world :=
  set_hp (set_ob (set_ob (set_ob (set_ob w (OD x) a_store) (OT x) (store_default KBuffer TDouble)) (OD y) a_store) (OT y) (store_default KBuffer TDouble))
    (set_blk (hp w) (r_mem r) (Live OwnR (map Some cs))).
Lemma a_ob cs o : ob (a_w cs) o = if oid_eqb o (OD x) || oid_eqb o (OD y) then a_store else if oid_eqb o (OT x) || oid_eqb o (OT y) then store_default KBuffer TDouble else ob w o.
Proof.
  unfold a_w, set_hp, set_ob. cbn [ob]. destruct o as [o|o]; cbn [oid_eqb]; destruct (Nat.eqb o x), (Nat.eqb o y); reflexivity.
Qed.
Lemma a_shape cs : length cs = length l -> world_shape (a_w cs).
Proof.
  intros LC. destruct AR as [[A B C D E] [G H]]. destruct RH as [RB RL]. rewrite map_length in RL. split.
  - intros a Ha. unfold a_w in *. cbn [hp set_hp set_blk hnext hblk] in *. destruct (Nat.eqb_spec a (r_mem r)) as [->|Na]; [|now apply A].
    rewrite A in RB by exact Ha. discriminate.
  - intros o. rewrite a_ob. destruct (oid_eqb o (OD x) || oid_eqb o (OD y)) eqn:Q1; [|destruct (oid_eqb o (OT x) || oid_eqb o (OT y)) eqn:Q2].
    + unfold store_shape, a_store. cbn [sz cap ptr alloc]. split; [lia|]. split; [lia|]. split; [reflexivity|]. exists (map Some cs).
      unfold a_w. cbn [hp set_hp set_blk hblk]. rewrite Nat.eqb_refl, map_length, LC. split; [reflexivity|lia].
    + unfold store_shape. cbn. lia.
    + destruct (G o) as [K P]. destruct (B o) as [B1 [B2 B3]]. rewrite P in B3. split; [exact B1|]. split; [exact B2|]. rewrite P. exact B3.
  - intros o1 o2 a [P1 O1]. exfalso. rewrite a_ob in P1, O1. destruct (oid_eqb o1 (OD x) || oid_eqb o1 (OD y)); [discriminate|].
    destruct (oid_eqb o1 (OT x) || oid_eqb o1 (OT y)); [discriminate|]. destruct (G o1) as [_ P]. congruence.
  - exact D.
  - intros a own c Hc. unfold a_w in Hc. cbn [hp set_hp set_blk hblk] in Hc. destruct (Nat.eqb a (r_mem r)); [|now apply (E a)].
    injection Hc as <- <-. split; [|discriminate]. rewrite map_length, LC. unfold int_max in RL. lia.
Qed.
Lemma a_holds cs : length cs = length l -> vholds (a_w cs) y cs.
Proof.
  intros LC. unfold vholds, holds. rewrite a_ob. cbn [oid_eqb]. rewrite Nat.eqb_refl, orb_true_r. split; [cbn; now rewrite LC|].
  intros i Hi. unfold at_rd. rewrite bind_st, a_ob. cbn [oid_eqb]. rewrite Nat.eqb_refl, orb_true_r. cbn [kd a_store].
  unfold sexp_get_at. rewrite bind_st, a_ob. cbn [oid_eqb]. rewrite Nat.eqb_refl, orb_true_r. cbn [a_store ptr sz]. rewrite bind_ass_true.
  replace (Z.of_nat i <? Z.of_nat (length l)) with true by (symmetry; apply Z.ltb_lt; lia). rewrite bind_ass_true. unfold rd.
  unfold a_w at 1. cbn [hp set_hp set_blk hblk]. rewrite Nat.eqb_refl, map_length, Nat2Z.id.
  replace ((0 <=? Z.of_nat i) && (Z.of_nat i <? Z.of_nat (length cs))) with true by (symmetry; apply andb_true_intro; split; [apply Z.leb_le|apply Z.ltb_lt]; lia).
  rewrite (nth_indep _ None (Some (VB false))) by (rewrite map_length; lia). now rewrite map_nth.
Qed.

Lemma alias_done : exists o w', wcall N lm [mkW ByWrap (mkP x TDouble r); mkW ByWrap (mkP y TDouble r)] (alias_fn x y (Z.of_nat k) (VD v)) w = (Done (Gave o), w') /\
  r_ty o = TDouble /\ r_dim o = None /\ hblk (hp w') (r_mem o) = Live OwnR (map Some (map VD (list_set l k v))) /\
  hblk (hp w') (r_mem r) = Live OwnR (map Some (map VD (list_set l k v))) /\ hblk (hp w) (r_mem o) = Unused /\
  forall a, a <> r_mem o -> a <> r_mem r -> hblk (hp w') a = hblk (hp w) a.
Proof.
  pose (l' := map VD (list_set l k v)). assert (LL : length l' = length l) by (unfold l'; now rewrite map_length, list_set_len).
  assert (RL : Z.of_nat (length l) <= int_max) by (destruct RH as [_ RL]; now rewrite map_length in RL).
  cbn [wcall p_name p_obj]. rewrite (bind_done _ _ _ _ _ (wrap_done w x r _ TY RH)). rewrite map_length.
  assert (F : exists o w1, (vec_wrap y r ;; jscope y (jrun N lm (alias_fn x y (Z.of_nat k) (VD v))))
      (set_ob (set_ob w (OD x) a_store) (OT x) (store_default KBuffer TDouble)) = (Done (Gave o), w1) /\
    r_ty o = TDouble /\ r_dim o = None /\ hblk (hp w1) (r_mem o) = Live OwnR (map Some l') /\ hblk (hp w1) (r_mem r) = Live OwnR (map Some l') /\
    hblk (hp w) (r_mem o) = Unused /\ (forall a, a <> r_mem o -> a <> r_mem r -> hblk (hp w1) a = hblk (hp w) a) /\
    ob w1 (OD x) = a_store /\ ob w1 (OT x) = store_default KBuffer TDouble).
  { rewrite (bind_done _ _ _ _ _ (wrap_done (set_ob (set_ob w (OD x) a_store) (OT x) (store_default KBuffer TDouble)) y r (map VD l) TY RH)). rewrite map_length. unfold jscope.
    set (w2 := set_ob _ (OT y) _).
    assert (O2 : forall o, ob w2 o = ob (a_w l') o) by (intros o; reflexivity).
    assert (E1 : jrun N lm (JDo (LElem x (Z.of_nat k) (VD v))) w2 = (Done Next, a_w l')).
    { cbn [jrun lrun]. rewrite bind_assoc, bind_get. rewrite O2, a_ob. cbn [oid_eqb]. rewrite Nat.eqb_refl. cbn [orb]. cbn [sty a_store cast]. rewrite bind_assoc, bind_lift_done.
      rewrite bind_assoc. rewrite (bind_done _ _ _ tt (a_w l')); [reflexivity|]. unfold at_wr. rewrite bind_st, O2, a_ob. cbn [oid_eqb]. rewrite Nat.eqb_refl. cbn [orb kd a_store].
      unfold sexp_set_at. rewrite bind_st, O2, a_ob. cbn [oid_eqb]. rewrite Nat.eqb_refl. cbn [orb a_store ptr sz].
      rewrite wrap64_small by (unfold int_max in RL; lia). rewrite bind_ass_true.
      replace (Z.of_nat k <? Z.of_nat (length l)) with true by (symmetry; apply Z.ltb_lt; lia). rewrite bind_ass_true. unfold wr, wrc.
      unfold w2 at 1. cbn [hp set_ob]. rewrite (proj1 RH), map_length, map_length, Nat2Z.id.
      replace ((0 <=? Z.of_nat k) && (Z.of_nat k <? Z.of_nat (length l))) with true by (symmetry; apply andb_true_intro; split; [apply Z.leb_le|apply Z.ltb_lt]; lia).
      unfold l', a_w. rewrite list_set_map, list_set_map. reflexivity. }
    unfold alias_fn. change (jrun N lm (JSeq ?a ?b)) with (jthen (jrun N lm a) (jrun N lm b)). unfold jthen. rewrite (bind_done _ _ _ _ _ E1).
    cbn [jrun lbuild]. rewrite bind_get, bind_lift_done.
    destruct (cpp2R_flat lm TDouble (EVar y) (fun _ => l') l' (a_w l') (a_shape l' LL)) as [o [w3 [E3 [T3 [D3 [B3 [F3 [O3 K3]]]]]]]].
    - intros z [<-|[]]. now apply a_holds.
    - exact I.
    - apply value_var. unfold l'. generalize (list_set l k v). intros q. clear. induction q; cbn; constructor; auto.
    - cbn [eim]. rewrite a_ob. cbn [oid_eqb]. rewrite Nat.eqb_refl, orb_true_r. cbn [a_store mp]. unfold r_shape. now rewrite DM.
    - rewrite LL. exact RL.
    - rewrite LL. exact HL.
    - rewrite (bind_done _ _ _ _ _ E3). cbn [ret].
      assert (Oy : ob w3 (OD y) = a_store) by (rewrite O3, a_ob; cbn [oid_eqb]; now rewrite Nat.eqb_refl, orb_true_r).
      assert (Ty : ob w3 (OT y) = store_default KBuffer TDouble) by (rewrite O3, a_ob; cbn [oid_eqb orb]; now rewrite Nat.eqb_refl, orb_true_r).
      destruct (end_wrap w3 y) as [w4 [E4 [H4 O4]]]; [now rewrite Oy|now rewrite Oy|now rewrite Ty|now rewrite Ty|].
      unfold ret. rewrite (bind_done _ _ _ _ _ E4). exists o, w4. split; [reflexivity|].
      assert (Nr : r_mem o <> r_mem r) by (intros Q; rewrite Q in F3; unfold a_w in F3; cbn [hp set_hp set_blk hblk] in F3; rewrite Nat.eqb_refl in F3; discriminate).
      rewrite H4. split; [exact T3|]. split; [exact D3|]. split; [exact B3|]. split.
      { rewrite K3 by congruence. unfold a_w. cbn [hp set_hp set_blk hblk]. now rewrite Nat.eqb_refl. }
      split. { unfold a_w in F3. cbn [hp set_hp set_blk hblk] in F3. destruct (Nat.eqb_spec (r_mem o) (r_mem r)); [contradiction|exact F3]. }
      split. { intros a N1 N2. rewrite K3 by exact N1. unfold a_w. cbn [hp set_hp set_blk hblk]. now destruct (Nat.eqb_spec a (r_mem r)). }
      rewrite !O4 by congruence. rewrite O3, !a_ob. cbn [oid_eqb orb]. rewrite Nat.eqb_refl. auto. }
  destruct F as [o [w1 [E1 [T1 [D1 [B1 [R1 [F1 [K1 [Ox Tx]]]]]]]]]]. unfold jscope at 1. fold a_store. unfold l' in *.
  cbn [wcall p_name p_obj]. rewrite E1.
  destruct (end_wrap w1 x) as [w4 [E4 [H4 O4]]]; [now rewrite Ox|now rewrite Ox|now rewrite Tx|now rewrite Tx|].
  rewrite (bind_done _ _ _ _ _ E4). exists o, w4. rewrite H4. repeat (split; [first [reflexivity|assumption]|]). exact K1.
Qed.
End Alias.

Theorem c93_alias : forall N lm w r l x y k v, at_rest w -> r_has w r (map VD l) -> r_ty r = TDouble -> r_dim r = None -> x <> y ->
  (k < length l)%nat -> Z.of_nat (length l) <= hlim (hp w) ->
  exists o w', wcall N lm [mkW ByWrap (mkP x TDouble r); mkW ByWrap (mkP y TDouble r)] (alias_fn x y (Z.of_nat k) (VD v)) w = (Done (Gave o), w') /\
    r_ty o = TDouble /\ r_dim o = None /\ hblk (hp w') (r_mem o) = Live OwnR (map Some (map VD (list_set l k v))) /\
    hblk (hp w') (r_mem r) = Live OwnR (map Some (map VD (list_set l k v))) /\ hblk (hp w) (r_mem o) = Unused /\
    forall a, a <> r_mem o -> a <> r_mem r -> hblk (hp w') a = hblk (hp w) a.
Proof. exact alias_done. Qed.
Print Assumptions c93_alias.

(* ---------------------------------------------------------------- examples *)

(** The hypotheses are met, in the state of c83_w: a function that sets elements
    of a wrapping parameter one after the other until it is outside; as it throws,
    a function with two parameters for the same matrix, one wrapping, one not. *)
Definition c93_m : robj := mkR TDouble 0 (Some (2, 3)).
Definition c93_outside : jstmt :=
  JSeq (JFor 5 (LMColon (LS (VI 1)) (LS (VI 7))) (fun v => JDo (LAtSet 0 (PZ (the_int v)) (VD fone)))) (JRet TDouble (LVar 0)).
Definition c93_both : jstmt := JSeq (JDo (LSub2Scalar 0 (LXZ 1) (LXB true) (VI 7))) (JRet TDouble (LBin OPlus (LVar 0) (LVar 1))).
Definition c93_s : wsession :=
  WCall [mkW ByWrap (mkP 0 TDouble c93_m)] c93_outside (fun r =>
    match r with
    | Some _ => WEnd
    | None => WCall [mkW ByWrap (mkP 0 TDouble c93_m); mkW ByCopy (mkP 1 TDouble c93_m)] c93_both (fun _ => WEnd)
    end).
Lemma c93_typed : cells_typed c83_w.
Proof.
  exists (fun a => match a with O => TDouble | _ => TInt end). split; [discriminate|].
  intros a own cs v H Hv. destruct a as [|[|[|a]]]; cbn in H; try discriminate; injection H as <- <-; cbn in Hv;
    repeat (destruct Hv as [Hv|Hv]; [injection Hv as <-; reflexivity|]); destruct Hv.
Qed.
Lemma c93_real : r_real c83_w c93_m /\ nonempty c83_w c93_m.
Proof.
  split; [exists (map (fun z => VD (i2f z)) [1; 2; 3; 4; 5; 6]); split; [reflexivity|]; repeat constructor|].
  intros own cs H. cbn in H. now injection H as <- <-.
Qed.
Example c93_ex : wsession_ok [c93_m] [c93_m] c93_s /\ wsession_writes_all c93_s /\ wsession_avoids 1 c93_s /\ wsession_avoids 2 c93_s /\
  cells_typed c83_w /\ at_rest c83_w /\ (forall o, In o [c93_m] -> r_real c83_w o) /\ (forall o, In o [c93_m] -> In o [c93_m] /\ nonempty c83_w o).
Proof.
  destruct c93_real as [R1 R2]. split.
  { cbn. unfold wcall_ok. cbn. repeat split; auto; try (intros p Hp; cbn in Hp; intuition (subst; cbn; auto));
      try (repeat constructor; cbn; intuition congruence); try (intros Hx; cbn in Hx; intuition congruence); try (intros x Hx; cbn in Hx; intuition (subst; cbn; auto)).
    all: repeat match goal with H : _ \/ _ |- _ => destruct H as [H|H] end; subst; cbn; auto; contradiction. }
  split; [cbn; repeat split; auto; intros [o|]; cbn; auto|].
  split; [cbn; split; [intuition discriminate|]; intros [o|]; cbn; auto; split; auto; intuition discriminate|].
  split; [cbn; split; [intuition discriminate|]; intros [o|]; cbn; auto; split; auto; intuition discriminate|].
  split; [apply c93_typed|]. split; [apply c83_rest|]. split; intros o [<-|[]]; auto. split; [now left|auto].
Qed.
(** What the first function wrote before the exception is in R's matrix. *)
Example c93_ex_run : forall lm, exists w', run_wsession 0 lm c93_s c83_w = (inl tt, w') /\
  hblk (hp w') 0%nat = Live OwnR (map Some (map (fun z => VD (i2f z)) [7; 1; 7; 1; 7; 1])) /\
  exists a, hblk (hp w') a = Live OwnR (map Some (map (fun z => VD (i2f z)) [8; 2; 8; 2; 8; 2])).
Proof. intros lm. eexists. split; [vm_compute; reflexivity|]. split; [vm_compute; reflexivity|]. exists 5%nat. vm_compute. reflexivity. Qed.
Example c93_alias_ex : forall N lm, exists o w', wcall N lm [mkW ByWrap (mkP 3 TDouble (mkR TDouble 0 None)); mkW ByWrap (mkP 4 TDouble (mkR TDouble 0 None))]
    (alias_fn 3 4 2 (VD (i2f 9))) c83_w = (Done (Gave o), w') /\
  hblk (hp w') (r_mem o) = Live OwnR (map Some (map (fun z => VD (i2f z)) [1; 2; 9; 4; 5; 6])) /\ hblk (hp w') 0%nat = hblk (hp w') (r_mem o).
Proof.
  intros N lm. destruct (c93_alias N lm c83_w (mkR TDouble 0 None) (map i2f [1; 2; 3; 4; 5; 6]) 3 4 2 (i2f 9) c83_rest) as [o [w' [E [_ [_ [B [R _]]]]]]].
  - split; [reflexivity|vm_compute; discriminate].
  - reflexivity.
  - reflexivity.
  - discriminate.
  - cbn. lia.
  - vm_compute. discriminate.
  - exists o, w'. split; [exact E|]. split; [exact B|]. cbn [r_mem] in R. now rewrite B, R.
Qed.

(** x = x + 1 for a wrapping parameter x: R's memory changes place with the
    scratch buffer of the vector, whose destructor then gives it to delete[]. *)
Theorem c93_assign_refuted : exists N lm w p b u, at_rest w /\ hlim (hp w) < 2 ^ 31 /\ cells_typed w /\ wraps p = true /\ r_real w (w_obj p) /\ nonempty w (w_obj p) /\
  scoped_j false [w_name p] [w_name p] b /\ writes_all_j b /\ returns b /\
  fst (wcall N lm [p] b w) = Undef u /\ ~ arithmetic u /\ u <> UB_uninit.
Proof.
  exists 0%nat, {| lm_un := fun _ z => z; lm_pow := fun a _ => a |}, c83_w, (mkW ByWrap (mkP 0 TDouble c93_m)),
    (JSeq (JDo (LAssign 0 (LBin OPlus (LVar 0) (LLit (VD fone))))) (JRet TDouble (LVar 0))), UB_foreign_free.
  split; [apply c83_rest|]. split; [reflexivity|]. split; [apply c93_typed|]. split; [reflexivity|]. split; [apply c93_real|]. split; [apply c93_real|].
  split; [cbn; repeat split; auto; intros x Hx; cbn in Hx; intuition (subst; cbn; auto)|]. split; [cbn; auto|]. split; [cbn; auto|].
  split; [vm_compute; reflexivity|]. split; [unfold arithmetic; intuition discriminate|discriminate].
Qed.
Print Assumptions c93_assign_refuted.

(** x = 1 (a number) for a parameter that wraps a vector without elements: the
    vector is resized, for which R's memory is given to delete[]. *)
Definition c93_w0 : world := mkWorld (mkHeap 1 (fun a => if Nat.eqb a 0 then Live OwnR [] else Unused) 1000) (fun _ => store_default KBuffer TDouble).
Theorem c93_empty_refuted : exists N lm w p b u, at_rest w /\ hlim (hp w) < 2 ^ 31 /\ cells_typed w /\ wcall_ok [p] b /\ r_real w (w_obj p) /\
  writes_all_j b /\ returns b /\
  fst (wcall N lm [p] b w) = Undef u /\ ~ arithmetic u /\ u <> UB_uninit.
Proof.
  exists 0%nat, {| lm_un := fun _ z => z; lm_pow := fun a _ => a |}, c93_w0, (mkW ByWrap (mkP 0 TDouble (mkR TDouble 0 None))),
    (JSeq (JDo (LScalar 0 (VD fone))) (JRet TDouble (LVar 0))), UB_foreign_free.
  split.
  { split; [|split].
    - split.
      + intros a La. cbn in La. destruct a; [lia|reflexivity].
      + intros o. repeat split; cbn; lia.
      + intros o1 o2 a [P _]. discriminate.
      + cbn. lia.
      + intros a own cs E. destruct a; cbn in E; [|discriminate]. injection E as <- <-. cbn. split; [lia|discriminate].
    - intros o. split; reflexivity.
    - intros a cs E. destruct a; cbn in E; discriminate. }
  split; [reflexivity|]. split.
  { exists (fun _ => TDouble). split; [discriminate|]. intros a own cs v H Hv. destruct a; cbn in H; [|discriminate]. injection H as <- <-. destruct Hv. }
  split; [unfold wcall_ok; cbn; repeat split; auto; try (repeat constructor; cbn; intuition congruence); intros x Hx; cbn in Hx; intuition (subst; cbn; auto)|].
  split; [exists []; split; [reflexivity|constructor]|]. split; [cbn; auto|]. split; [cbn; auto|].
  split; [vm_compute; reflexivity|]. split; [unfold arithmetic; intuition discriminate|discriminate].
Qed.
Print Assumptions c93_empty_refuted.
