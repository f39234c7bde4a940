(** Functions that use the memory of R objects: memory safety and what they
    leave to R. *)
From Coq Require Import ZArith List String Bool Lia.
From Verif Require Import Base Num StoreModel VecModel SubsetModel AllocModel ProgModel LangModel OutModel ForeignModel CallModel JumpModel WrapCallModel
  Spec SpecExpr SpecVec SpecHist SpecProg SpecSub SpecAlloc SpecStmt SpecMat SpecOut SpecForeign SpecSafe SpecLang SpecStatic SpecCall SpecSession SpecJump SpecWrapCall
  StoreProofs StoreOps StoreThms StoreThms2 VecProofs VecThms VecAssign VecEval AllocProofs2 ProgProofs LendProofs LendThms SafeProofs LangProofs
  MatThms OutProofs ForeignProofs HideProofs CallProofs CallSafe JumpProofs.
From Verif Require StaticProofs WrapTypes.
Import ListNotations.
Open Scope Z_scope.
Local Notation length := List.length (only parsing).

(* ------------------------------------------------------- blocks not touched *)

Section Hide.
Variables (P : Prop) (Q : oid -> Prop) (a : nat) (B : block).
Local Notation hides := (hides P Q a B).

Lemma hides_vec_wrap x r : (P -> r_mem r <> a) -> ~ Q (OD x) -> hides (vec_wrap x r).
Proof.
  intros Hr Nq. unfold vec_wrap, sexp_wrap. apply hides_bind.
  - apply hides_bind; [apply hides_ass|]. intros _. apply hides_bind.
    + intros w H. unfold r_length. destruct (hblk (hp w) (r_mem r)) as [|[] cs|]; auto. destruct (_ <=? _); exact H.
    + intros n. apply hides_upd; [intros s _ p; cbn; specialize (Hr p); congruence|]. intros s _ q. contradiction.
  - intros _. apply hides_upd; [intros s _ p; cbn; discriminate|reflexivity].
Qed.
Lemma hides_wcall N lm ps b : (forall p, In p ps -> wraps p = true -> (P -> r_mem (w_obj p) <> a) /\ ~ Q (OD (w_name p))) -> hides (wcall N lm ps b).
Proof.
  induction ps as [|[h p] ps IH]; intros H; cbn [wcall]; [apply hides_jrun|].
  assert (IH' : hides (wcall N lm ps b)) by (apply IH; intros q Hq; apply H; now right). destruct h.
  - apply hides_bind; [apply hides_vec_default|]. intros _. apply hides_jscope. apply hides_bind; [apply hides_assign_R|]. intros _. exact IH'.
  - destruct (H (mkW ByWrap p) (or_introl eq_refl) eq_refl) as [H1 H2].
    apply hides_bind; [now apply hides_vec_wrap|]. intros _. now apply hides_jscope.
Qed.
End Hide.

(** How a call ends when all its scopes have been left. *)
Definition over (r : outcome flow) : bool := match r with Done More | Thrown BadAlloc | Undef _ => false | _ => true end.
Definition own_on (S : oid -> Prop) (w : world) : Prop := forall o, S o -> kd (ob w o) = KBuffer.
Lemma own_hid S w : own_on S w <-> hid False S 0%nat Unused w.
Proof. split; [intros H; split; [tauto|split; [tauto|exact H]]|intros [_ [_ H]]; exact H]. Qed.
Lemma own_kept {A} S (m : M world A) w r w' : hides False S 0%nat Unused m -> m w = (r, w') -> own_on S w -> own_on S w'.
Proof. intros H E K. apply own_hid. specialize (H w (proj1 (own_hid S w) K)). now rewrite E in H. Qed.

Lemma end_owns x w w' : vec_end x w = (Done tt, w') -> kd (ob w' (OD x)) = KBuffer.
Proof.
  unfold vec_end, bind. destruct (vec_destroy x w) as [[[]|e|u] w1]; try discriminate. cbn. intros [= <-].
  cbn. now rewrite Nat.eqb_refl.
Qed.

Section Mode.
Variable ini : mode.

Lemma scope_over L x (m : M world flow) w : ~ In x L -> (let (r, w1) := m w in jends ini (x :: L) r w1) ->
  let (r, w') := jscope x m w in over r = true -> exists r1 w1, m w = (r1, w1) /\ over r1 = true /\ vec_end x w1 = (Done tt, w').
Proof.
  intros Nx H. unfold jscope. destruct (m w) as [[[| | |o|]|[e|]|u] w1]; cbn [jends] in H; try discriminate.
  4: destruct H as [H _].
  all: destruct (sound_pop ini L w1 x H Nx) as [w2 [E2 S2]]; rewrite (bind_done _ _ _ _ _ E2); intros _; eexists _, w1; split; [reflexivity|]; split; [reflexivity|exact E2].
Qed.

Lemma wrap_safe L w x r : sound_at ini L w -> In x (wrapped ini) -> ~ In x L -> r_real w r -> nonempty w r ->
  (forall o c m, In (r_mem r, o, c, m) (lenders ini) -> m = length c /\ hblk (hp w) (r_mem r) = Live o c) ->
  let (o, w1) := vec_wrap x r w in
  match o with Done _ => sound_at ini (x :: L) w1 /\ hp w1 = hp w | Thrown (Ass _) => w1 = w | _ => False end.
Proof.
  intros SO R Nx [xs [RB RF]] NE LE. unfold vec_wrap, sexp_wrap.
  destruct (r_is TDouble r) eqn:Ri; [|reflexivity]. unfold bind, ass, r_length. cbn [ret]. rewrite RB, map_length.
  destruct (Z.of_nat (length xs) <=? int_max) eqn:Hn; [|reflexivity]. apply Z.leb_le in Hn. split; [|reflexivity].
  assert (Lx : (1 <= length xs)%nat) by (specialize (NE _ _ RB); destruct xs; [now destruct NE|cbn; lia]).
  apply (foreign_old ini L w x (r_mem r) OwnR (map Some xs) (mkStore KBorrowSEXP TDouble (Some (r_mem r)) (Z.of_nat (length xs)) (Z.of_nat (length xs)) true (r_shape r mp_none) false)); auto; cbn [cap sz kd todel]; try discriminate.
  - unfold int_max in Hn. lia.
  - rewrite map_length. lia.
  - intros i Hi. exists (nth (Z.to_nat i) xs (VB false)). rewrite nth_indep with (d' := Some (VB false)) by (rewrite map_length; lia).
    now rewrite (map_nth Some).
  - intros o c m Hm. destruct (LE o c m Hm) as [-> Hb]. rewrite RB in Hb. injection Hb as _ <-. rewrite map_length. lia.
Qed.

Lemma wcall_ends N lm b : forall ps L w, NoDup (map w_name ps) -> (forall p, In p ps -> ~ In (w_name p) L) ->
  scoped_j false (rev (map w_name ps) ++ L) (rev (map w_name ps) ++ L) b -> keeps_j (wrapped ini) b -> (written ini = true -> writes_all_j b) ->
  (forall p, In p ps -> r_real w (w_obj p) /\ if wraps p then In (w_name p) (wrapped ini) /\ nonempty w (w_obj p) else ~ In (w_name p) (wrapped ini)) ->
  (forall a o c m, In (a, o, c, m) (lenders ini) -> m = length c /\ hblk (hp w) a = Live o c /\ o <> OwnCpp) ->
  sound_at ini L w ->
  let (r, w') := wcall N lm ps b w in
  jends ini L r w' /\ (over r = true -> forall S, own_on S w -> own_on S w').
Proof.
  induction ps as [|[h p] ps IH]; intros L w ND NL Sc Kp Wr Re LE SO; cbn [wcall].
  - pose proof (jrun_ends ini N lm b false _ _ w (incl_refl _) Sc Wr Kp SO) as Q.
    destruct (jrun N lm b w) as [r w'] eqn:E. split; [exact Q|]. intros _ S HS. exact (own_kept S _ _ _ _ (hides_jrun _ _ _ _ N lm b) E HS).
  - cbn [map rev] in ND, Sc. apply NoDup_cons_iff in ND. destruct ND as [Np ND]. rewrite <- app_assoc in Sc. cbn [app] in Sc.
    change (w_name (mkW h p)) with (p_name p) in *.
    assert (Nx : ~ In (p_name p) L) by (apply (NL (mkW h p)); now left).
    assert (NL' : forall q, In q ps -> ~ In (w_name q) (p_name p :: L)).
    { intros q Hq [E|Hl]; [|apply (NL q); [now right|exact Hl]]. apply Np. rewrite E. now apply in_map. }
    destruct (Re (mkW h p) (or_introl eq_refl)) as [Rp Hp]. change (w_obj (mkW h p)) with (p_obj p) in *.
    destruct h; cbn [wraps w_how] in Hp.
    + destruct (load_safe ini L w (p_name p) (p_type p) (p_obj p) SO Hp Nx Rp) as [w1 [E1 [S1 [SO1 Q]]]].
      rewrite (bind_done _ _ _ _ _ E1).
      assert (G : let (r, w') := (assign_R (p_name p) (p_obj p) ;; wcall N lm ps b) w1 in
        jends ini (p_name p :: L) r w' /\ (over r = true -> forall S, own_on S w1 -> own_on S w')).
      { unfold bind. destruct (assign_R (p_name p) (p_obj p) w1) as [[[]|[m|]|u] w2] eqn:EA.
        - destruct Q as [S2 SO2].
          assert (FK : forall a own cs, own <> OwnCpp -> hblk (hp w) a = Live own cs -> hblk (hp w2) a = Live own cs) by (intros a own cs NO Ha; eapply (vs_ext _ _ _ S2); eauto).
          assert (G : let (r, w') := wcall N lm ps b w2 in jends ini (p_name p :: L) r w' /\ (over r = true -> forall S, own_on S w2 -> own_on S w')).
          { apply IH; auto.
            - intros q Hq. destruct (Re q (or_intror Hq)) as [Rq Hw]. split; [eapply real_kept; eauto|]. destruct (wraps q); [|exact Hw].
              destruct Hw as [Hw Ne]. split; [exact Hw|]. destruct Rq as [xs [Bq _]]. intros own cs Hb. rewrite (FK _ OwnR _ ltac:(discriminate) Bq) in Hb.
              injection Hb as <- <-. now apply (Ne _ _ Bq).
            - intros a o c m Hm. destruct (LE a o c m Hm) as [-> [Hb NO]]. split; [reflexivity|]. split; [now apply FK|exact NO]. }
          destruct (wcall N lm ps b w2) as [r w']. destruct G as [G1 G2]. split; [exact G1|]. intros Ho S HS. apply (G2 Ho).
          exact (own_kept S _ _ _ _ (hides_assign_R _ _ _ _ _ _) EA HS).
        - subst w2. split; [exact SO1|]. intros _ S HS. exact HS.
        - split; [exact I|discriminate].
        - destruct Q. }
      assert (G1 : let (r, w') := (assign_R (p_name p) (p_obj p) ;; wcall N lm ps b) w1 in jends ini (p_name p :: L) r w') by (destruct (bind _ _ w1); apply G).
      pose proof (jends_scope ini L (p_name p) _ w1 Nx G1) as J1. pose proof (scope_over L (p_name p) _ w1 Nx G1) as J2.
      destruct (jscope (p_name p) _ w1) as [r w']. split; [exact J1|]. intros Ho S HS. destruct (J2 Ho) as [r1 [w2 [E2 [O2 V2]]]].
      rewrite E2 in G. apply (own_kept S _ _ _ _ (hides_vec_end _ _ _ _ _) V2). apply (proj2 G O2).
      exact (own_kept S _ _ _ _ (hides_vec_default _ _ _ _ _ _) E1 HS).
    + destruct Hp as [Hp Ne].
      assert (LE1 : forall o c m, In (r_mem (p_obj p), o, c, m) (lenders ini) -> m = length c /\ hblk (hp w) (r_mem (p_obj p)) = Live o c) by (intros o c m Hm; destruct (LE _ _ _ _ Hm); tauto).
      pose proof (wrap_safe L w (p_name p) (p_obj p) SO Hp Nx Rp Ne LE1) as Q.
      unfold bind. destruct (vec_wrap (p_name p) (p_obj p) w) as [[[]|[m|]|u] w1] eqn:E1; try contradiction.
      2: { subst w1. split; [exact SO|]. intros _ S HS. exact HS. }
      destruct Q as [SO1 H1].
      assert (G : let (r, w') := wcall N lm ps b w1 in jends ini (p_name p :: L) r w' /\ (over r = true -> forall S, own_on S w1 -> own_on S w')).
      { apply IH; auto.
        - intros q Hq. destruct (Re q (or_intror Hq)) as [Rq Hw]. split; [unfold r_real; rewrite H1; exact Rq|]. destruct (wraps q); [|exact Hw].
          unfold nonempty. now rewrite H1.
        - intros a o c m Hm. rewrite H1. now apply (LE a o c m). }
      assert (G1 : let (r, w') := wcall N lm ps b w1 in jends ini (p_name p :: L) r w') by (destruct (wcall N lm ps b w1); apply G).
      pose proof (jends_scope ini L (p_name p) _ w1 Nx G1) as J1. pose proof (scope_over L (p_name p) _ w1 Nx G1) as J2.
      destruct (jscope (p_name p) _ w1) as [r w']. split; [exact J1|]. intros Ho S HS. destruct (J2 Ho) as [r1 [w2 [E2 [O2 V2]]]].
      rewrite E2 in G. pose (S' := fun o => S o /\ o <> OD (p_name p)).
      assert (HS1 : own_on S' w1).
      { eapply (own_kept S' _ _ _ _ (hides_vec_wrap False S' 0%nat Unused (p_name p) (p_obj p) ltac:(tauto) _) E1). intros o [Ho1 _]. now apply HS. }
      assert (HS2 : own_on S' w') by (apply (own_kept S' _ _ _ _ (hides_vec_end _ _ _ _ _) V2); now apply (proj2 G O2)).
      intros o Hso. assert (D : o = OD (p_name p) \/ o <> OD (p_name p)).
      { destruct o as [y|y]; [|right; discriminate]. destruct (Nat.eq_dec y (p_name p)) as [->|Ny]; [now left|right; congruence]. }
      destruct D as [->|D]; [eapply end_owns; exact V2|]. apply HS2. now split.
      Unshelve. unfold S'. intros [_ Hx]. now apply Hx.
Qed.
End Mode.

(* ------------------------------------------------------------------- calls *)

(** The cells of a block. *)
Definition cells_at (w : world) (a : nat) : list (option val) := match hblk (hp w) a with Live _ cs => cs | _ => [] end.
Definition wmode (i : bool) (ps : list wparam) (w : world) : mode :=
  Mode i (wrapped_names ps) (map (fun a => (a, OwnR, cells_at w a, length (cells_at w a))) (wrapped_mem ps)).
Lemma wrapped_in ps p : In p ps -> wraps p = true -> In (w_name p) (wrapped_names ps) /\ In (r_mem (w_obj p)) (wrapped_mem ps).
Proof.
  intros Hp Hw. assert (H : In p (filter wraps ps)) by (apply filter_In; auto). split; [now apply in_map|].
  apply (in_map (fun p => r_mem (w_obj p))) in H. exact H.
Qed.
Lemma wrapped_mem_in ps a : In a (wrapped_mem ps) -> exists p, In p ps /\ wraps p = true /\ r_mem (w_obj p) = a.
Proof. intros H. apply in_map_iff in H. destruct H as [p [E H]]. apply filter_In in H. exists p. tauto. Qed.
Lemma wrapped_names_in ps x : In x (wrapped_names ps) -> exists p, In p ps /\ wraps p = true /\ w_name p = x.
Proof. intros H. apply in_map_iff in H. destruct H as [p [E H]]. apply filter_In in H. exists p. tauto. Qed.
Lemma same_name ps p q : NoDup (map w_name ps) -> In p ps -> In q ps -> w_name p = w_name q -> p = q.
Proof.
  induction ps as [|r ps IH]; cbn [map]; [intros _ []|]. intros ND Hp Hq E. apply NoDup_cons_iff in ND. destruct ND as [Nr ND].
  destruct Hp as [<-|Hp], Hq as [<-|Hq]; auto; exfalso; apply Nr; [rewrite E|rewrite <- E]; now apply in_map.
Qed.

(** What a call leaves. *)
Definition wends (i : bool) (ps : list wparam) (w : world) (b : jstmt) (r : outcome flow) (w' : world) : Prop :=
  match r with
  | Done (Gave o) => at_rest w' /\ hlim (hp w') < 2 ^ 31 /\ r_real w' o
  | Done Next => ~ returns b /\ at_rest w' /\ hlim (hp w') < 2 ^ 31
  | Thrown (Ass _) => at_rest w' /\ hlim (hp w') < 2 ^ 31
  | Done Broke | Done Again => False
  | Done More | Thrown BadAlloc => True
  | Undef u => allowed i u
  end.

Section Call.
Variables (i : bool) (N : nat) (lm : libm) (ps : list wparam) (b : jstmt) (w : world).
Hypothesis AR : at_rest w.
Hypothesis HL : hlim (hp w) < 2 ^ 31.
Hypothesis OK : wcall_ok ps b.
Hypothesis WR : i = true -> writes_all_j b.
Hypothesis RE : forall p, In p ps -> r_real w (w_obj p) /\ (wraps p = true -> nonempty w (w_obj p)).

Lemma lenders_real a o c m : In (a, o, c, m) (lenders (wmode i ps w)) -> m = length c /\ hblk (hp w) a = Live o c /\ o <> OwnCpp.
Proof.
  cbn [wmode lenders]. intros H. apply in_map_iff in H. destruct H as [a' [[= <- <- <- <-] H]]. split; [reflexivity|]. split; [|discriminate].
  destruct (wrapped_mem_in _ _ H) as [p [Hp [_ <-]]]. destruct (RE p Hp) as [[xs [Bx _]] _]. unfold cells_at. now rewrite Bx.
Qed.
Lemma start_sound : sound_at (wmode i ps w) [] w.
Proof.
  apply rest_sound; auto. intros a o c m H. destruct (lenders_real a o c m H) as [-> [Hb NO]]. split; [exact NO|]. exists c. split; [exact Hb|].
  split; [reflexivity|]. split; [|reflexivity]. intros k v Hv. now exists v.
Qed.
Lemma wcall_sound : let (r, w') := wcall N lm ps b w in
  jends (wmode i ps w) [] r w' /\ (over r = true -> forall o, kd (ob w' o) = KBuffer).
Proof.
  destruct OK as [ND [Sc Kp]].
  pose proof (wcall_ends (wmode i ps w) N lm b ps [] w ND (fun _ _ H => H) ltac:(now rewrite app_nil_r) Kp WR) as Q.
  assert (Q1 : forall p, In p ps -> r_real w (w_obj p) /\ if wraps p then In (w_name p) (wrapped_names ps) /\ nonempty w (w_obj p) else ~ In (w_name p) (wrapped_names ps)).
  { intros p Hp. destruct (RE p Hp) as [R1 R2]. split; [exact R1|]. destruct (wraps p) eqn:Ep.
    - split; [now apply wrapped_in|now apply R2].
    - intros H. destruct (wrapped_names_in _ _ H) as [q [Hq [Eq En]]]. rewrite (same_name ps q p ND Hq Hp En) in Eq. congruence. }
  specialize (Q Q1 lenders_real start_sound). destruct (wcall N lm ps b w) as [r w']. destruct Q as [J O]. split; [exact J|].
  intros Ho o. apply (O Ho (fun _ => True)); [|exact I]. intros o' _. apply AR.
Qed.
Lemma sound_over w' : sound_at (wmode i ps w) [] w' -> (forall o, kd (ob w' o) = KBuffer) -> at_rest w'.
Proof.
  intros [A B C D E F] K'. assert (U : forall o a, ~ owns (ob w' o) a) by (intros [y|y] a; apply (D y); intros Hy; destruct Hy).
  split; [exact A|]. split.
  - intros o. split; [apply K'|]. destruct (ptr (ob w' o)) as [a|] eqn:P; [|reflexivity].
    exfalso. apply (U o a). split; [exact P|]. unfold owner_of. now rewrite K'.
  - intros a cs Ha. destruct (E a cs Ha) as [o Ho]. now apply (U o a).
Qed.

Lemma wcall_stays Q : ends_in Q (jrun N lm b) -> ends_in Q (wcall N lm ps b).
Proof.
  clear. intros H. induction ps as [|[h p] ps' IH]; cbn [wcall]; [exact H|]. destruct h.
  - apply ends_in_bind. intros _. apply ends_in_scope. apply ends_in_bind. intros _. exact IH.
  - apply ends_in_bind. intros _. apply ends_in_scope. exact IH.
Qed.

Lemma wcall_unwrapped r w' : wcall N lm ps b w = (r, w') -> unwrapped_kept ps w w'.
Proof.
  intros E a own cs NO Ha Na. pose proof (rest_hidden w a _ AR Ha ltac:(discriminate)) as Hh.
  assert (H : hides True (fun _ => False) a (Live own cs) (wcall N lm ps b)).
  { apply hides_wcall. intros p Hp Hw. split; [|tauto]. intros _ <-. apply Na. now apply wrapped_in. }
  apply H in Hh. rewrite E in Hh. now apply Hh.
Qed.

Lemma wcall_safe : let (r, w') := wcall N lm ps b w in
  unwrapped_kept ps w w' /\ wends i ps w b r w' /\ (over r = true -> there (lenders (wmode i ps w)) w').
Proof.
  pose proof wcall_sound as Q. pose proof (wcall_unwrapped) as U.
  pose proof (wcall_stays _ (jrun_stays N lm b false _ _ (proj1 (proj2 OK))) w) as St.
  pose proof (fun R => wcall_stays _ (jrun_returns N lm b R) w) as Rt.
  destruct (wcall N lm ps b w) as [r w'] eqn:E. destruct Q as [J K]. split; [now apply (U r)|].
  destruct r as [[| | |o|]|[m|]|u]; cbn [jends wends] in *.
  - split; [|intros _; apply J]. split; [|split; [apply sound_over; auto|apply J]]. intros R. now apply (Rt R Next w').
  - now destruct (St Broke w' eq_refl eq_refl).
  - now destruct (St Again w' eq_refl eq_refl).
  - destruct J as [S [us [[Hh _] F]]]. split; [|intros _; apply S]. split; [apply sound_over; auto|]. split; [apply S|]. exists us. split; [apply Hh; exact I|exact F].
  - split; [exact I|discriminate].
  - split; [|intros _; apply J]. split; [apply sound_over; auto|apply J].
  - split; [exact I|discriminate].
  - split; [exact J|discriminate].
Qed.

(** The lengths of all blocks of R and others. *)
Lemma wcall_lengths r w' : wcall N lm ps b w = (r, w') -> over r = true -> lengths_kept w w'.
Proof.
  intros E Ho a own cs NO Ha. pose proof wcall_safe as Q. rewrite E in Q. destruct Q as [U [_ T]].
  destruct (in_dec Nat.eq_dec a (wrapped_mem ps)) as [H|H]; [|exists cs; split; [now apply U|reflexivity]].
  destruct (wrapped_mem_in _ _ H) as [p [Hp [_ <-]]]. destruct (RE p Hp) as [[xs [Bx _]] _]. rewrite Bx in Ha. injection Ha as <- <-.
  destruct (T Ho (r_mem (w_obj p)) OwnR (map Some xs) (length (map Some xs))) as [_ [cs' [B1 [B2 _]]]].
  { cbn [wmode lenders]. apply in_map_iff. exists (r_mem (w_obj p)). split; [|exact H]. unfold cells_at. now rewrite Bx. }
  exists cs'. now split.
Qed.

Lemma all_some (l : list (option val)) : (forall k, (k < length l)%nat -> exists v, nth k l None = Some v) -> exists ys, l = map Some ys.
Proof.
  clear. induction l as [|c l IH]; intros H; [now exists []|]. destruct (H 0%nat ltac:(cbn; lia)) as [v Hv]. cbn in Hv. subst c.
  destruct IH as [ys ->]; [intros k Hk; apply (H (S k)); cbn; lia|]. now exists (v :: ys).
Qed.

(** Every R object is still one, if it was wrapped or not. *)
Lemma wcall_real r w' : cells_typed w -> wcall N lm ps b w = (r, w') -> over r = true -> cells_typed w' /\ forall o, r_real w o -> r_real w' o.
Proof.
  intros [bt0 C0] E Ho. pose (fx := fun a t => (a < hnext (hp w))%nat /\ t = bt0 a).
  assert (CT : StaticProofs.ct fx w).
  { exists bt0. split; [|exact C0]. intros a t [H ->]. now split. }
  assert (BT : forall o xs v, hblk (hp w) (r_mem o) = Live OwnR (map Some xs) -> In v xs -> ty_of v = bt0 (r_mem o)).
  { intros o xs v Hb Hv. destruct C0 as [_ C2]. eapply C2; [exact Hb|]. now apply in_map. }
  assert (LT : forall a own cs, hblk (hp w) a = Live own cs -> (a < hnext (hp w))%nat).
  { intros a own cs Hb. destruct AR as [W _]. destruct (Nat.lt_ge_cases a (hnext (hp w))) as [L|L]; [exact L|]. rewrite (ws_fresh w W a L) in Hb. discriminate. }
  destruct OK as [ND [Sc Kp]].
  pose proof (WrapTypes.wcall_typed fx lm N b ps [] (fun o => sty (ob w o)) ND (fun _ _ H => H) ltac:(now rewrite app_nil_r) (fun x H => match H with end)) as Q.
  assert (Q1 : forall p, In p ps -> wraps p = true -> r_ty (w_obj p) = TDouble -> fx (r_mem (w_obj p)) TDouble).
  { intros p Hp Hw Ht. destruct (RE p Hp) as [[xs [Bx Fx]] Ne]. specialize (Ne Hw _ _ Bx). split; [eapply LT; eauto|].
    destruct xs as [|v xs]; [now destruct Ne|]. rewrite <- (BT _ _ v Bx (or_introl eq_refl)). apply Forall_inv in Fx. rewrite Ht in Fx.
    destruct v; cbn in Fx; try contradiction; reflexivity. }
  specialize (Q Q1 w CT (fun _ => eq_refl)).
  pose proof wcall_safe as Sf. rewrite E in Q, Sf.
  assert (CT' : StaticProofs.ct fx w') by (destruct r as [f|e|u]; [| |discriminate]; destruct Q as [T' [Q _]]; exact Q).
  destruct CT' as [bt [F1 C1]]. split; [exists bt; exact C1|].
  intros o [xs [Bo Fo]]. destruct Sf as [U [_ T]].
  destruct (in_dec Nat.eq_dec (r_mem o) (wrapped_mem ps)) as [H|H]; [|exists xs; split; [apply U; auto; discriminate|exact Fo]].
  destruct (T Ho (r_mem o) OwnR (map Some xs) (length (map Some xs))) as [_ [cs' [B1 [B2 [B3 _]]]]].
  { cbn [wmode lenders]. apply in_map_iff. exists (r_mem o). split; [|exact H]. unfold cells_at. now rewrite Bo. }
  destruct (all_some cs') as [ys ->].
  { intros k Hk. rewrite B2, map_length in Hk. apply (B3 k (nth k xs (VB false))). rewrite nth_indep with (d' := Some (VB false)) by (rewrite map_length; lia). apply (map_nth Some). }
  exists ys. split; [exact B1|]. apply Forall_forall. intros v Hv.
  destruct (F1 (r_mem o) (bt0 (r_mem o))) as [_ Eb]; [split; [eapply LT; eauto|reflexivity]|].
  assert (Tv : ty_of v = bt0 (r_mem o)) by (rewrite <- Eb; eapply (proj2 C1); [exact B1|]; now apply in_map).
  destruct xs as [|u xs]; [rewrite !map_length in B2; destruct ys; [destruct Hv|discriminate]|].
  rewrite <- (BT o _ u Bo (or_introl eq_refl)) in Tv. apply Forall_inv in Fo. destruct (r_ty o), u; cbn in Fo; try contradiction; destruct v; try discriminate; exact I.
Qed.
End Call.
