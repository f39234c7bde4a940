(** A collector changes nothing for functions that use the memory of R objects,
    as long as R reaches the objects. *)
From Coq Require Import ZArith List String Bool Lia Arith.
From Verif Require Import Base Num StoreModel VecModel SubsetModel AllocModel ProgModel LangModel OutModel ForeignModel CallModel JumpModel RgcModel GcCallModel WrapCallModel GcWrapModel
  Spec SpecExpr SpecHist SpecSafe SpecLang SpecOut SpecForeign SpecGc SpecCall SpecSession SpecStatic SpecJump SpecGcCall SpecWrapCall SpecGcWrap
  StoreProofs VecProofs OutProofs GcProofs BlindProofs SafeProofs LangProofs CallSafe JumpProofs GcCallProofs WrapCallProofs.
Import ListNotations.
Open Scope Z_scope.
Local Notation length := List.length (only parsing).

(* ------------------------------------------------------------------- calls *)

Local Ltac stay := apply here; [reflexivity|assumption].
Lemma wrap_step (X : nat -> Prop) Q x r w s : X (r_mem r) -> gsimX X Q w s ->
  exists o w1 s1, vec_wrap x r w = (o, w1) /\ inw (vec_wrap x r) s = (o, s1) /\ gsimX X Q w1 s1 /\ moved True w s w1 s1.
Proof.
  intros Xr [T [B1 [B2 [R [D [Sx [K V]]]]]]]. destruct (V _ Xr) as [NT [_ LT]].
  assert (BL : fst (vec_wrap x r (rw s)) = fst (vec_wrap x r w) /\ rel T X B1 B2 (snd (vec_wrap x r w)) (snd (vec_wrap x r (rw s))) /\ (hnext (hp w) <= hnext (hp (snd (vec_wrap x r w))))%nat).
  { assert (B : blind_at T X B1 B2 (S (r_mem r)) (vec_wrap x r)).
    { unfold vec_wrap, sexp_wrap. apply blind_bind; [|intros _; apply blind_ctor_default]. apply blind_bind; [apply blind_ass|]. intros _. apply blind_bind.
      - intros v v' Rv L. unfold r_length. rewrite (rel_same _ _ _ _ _ _ Rv _ NT). destruct (hblk _ _) as [|[] cs|]; try stay. destruct (_ <=? _); stay.
      - intros n. apply blind_upd. intros K1 st L F a [= <-]. split; [exact NT|lia]. }
    apply B; [exact R|lia]. }
  destruct BL as [E [R1 L]]. unfold inw. destruct (vec_wrap x r w) as [o w1], (vec_wrap x r (rw s)) as [o2 w2]; cbn [fst snd] in *; subst o2.
  exists o, w1, (mkRW w2 (pstk s) (root s)). split; [reflexivity|]. split; [reflexivity|]. split.
  - exists T, B1, B2. split; [exact R1|]. split; [exact D|]. split; [exact Sx|]. split; [exact K|]. eapply held_moved; [exact V|reflexivity|exact L].
  - split; [reflexivity|]. split; [exact L|]. exists []. split; [reflexivity|]. split; [intros a []|reflexivity].
Qed.

Definition wargs (ps : list wparam) (a : nat) : Prop := exists p, In p ps /\ a = r_mem (w_obj p).
Lemma step_wcall (X : nat -> Prop) G N lm b : forall ps, (forall p, In p ps -> wraps p = true -> X (r_mem (w_obj p))) ->
  step (X := X) (wargs ps) gave (no_try b) (wcall N lm ps b) (wcall_g G N lm ps b).
Proof.
  induction ps as [|[h p] ps IH]; intros HX; cbn [wcall wcall_g]; [eapply step_weak; [| |apply step_jrun]; [intros a []|auto]|].
  assert (IH1 := IH (fun q Hq => HX q (or_intror Hq))). clear IH. destruct h.
  - eapply (step_bind _ (fun _ => wargs (mkW ByCopy p :: ps))).
    + apply step_inw; [|auto]. intros T Y B1 B2 _. apply blind_vec_default.
    + intros ?. apply step_jscope. eapply (step_bind _ (fun _ => wargs (mkW ByCopy p :: ps))).
      * apply step_inw; [|auto]. intros T Y B1 B2 Hs. apply blind_assign_R. apply Hs. exists (mkW ByCopy p). split; [now left|reflexivity].
      * intros ?. eapply step_weak; [|auto|exact IH1]; [|auto]. intros a [q [I E]]. exists q. split; [now right|exact E].
  - eapply (step_bind _ (fun _ => wargs (mkW ByWrap p :: ps))).
    + intros w s S. destruct (wrap_step X _ (p_name p) (p_obj p) w s (HX (mkW ByWrap p) (or_introl eq_refl) eq_refl) S) as [o [w1 [s1 [E [E' [S1 M1]]]]]].
      exists o, w1, s1. split; [exact E|]. split; [exact E'|]. split; [|eapply moved_weak; [|exact M1]; auto].
      destruct o; [exact S1|eapply gsim_none; exact S1|eapply gsim_none; exact S1].
    + intros ?. apply step_jscope. eapply step_weak; [|auto|exact IH1]; [|auto]. intros a [q [I E]]. exists q. split; [now right|exact E].
Qed.

(** The wrapped blocks come under the eyes of the library, and go back. *)
Lemma gsim_acquire (X : nat -> Prop) Q w s : (forall a, X a \/ ~ X a) -> (forall a, X a -> root s a = true /\ (a < hnext (hp w))%nat) ->
  (forall o, ptr (ob w o) = None) -> gsimX none Q w s -> gsimX X Q w s.
Proof.
  intros XD XR P [T [B1 [B2 [R [D [Sx [K _]]]]]]]. exists (fun a => T a /\ ~ X a), B1, B2. destruct R as [R1 R2 R3 R4 R5 R6 R7 R8].
  assert (EX : forall a, T a -> X a -> B2 a = B1 a).
  { intros a Ta Xa. destruct (Sx a Ta) as [E|[_ [_ E]]]; [exact E|]. unfold kept in E. rewrite (proj1 (XR a Xa)) in E. discriminate. }
  split; [|split; [|split; [|split]]].
  - constructor; auto.
    + intros a Na. destruct (D a) as [Ta|NT]; [|auto]. destruct (XD a) as [Xa|NX]; [|tauto]. destruct (R5 a Ta) as [E1 E2]. rewrite E1, E2. auto.
    + intros a [Ta _]. auto.
    + intros a [Ta _]. auto.
    + intros o a E. now rewrite P in E.
    + intros a cs H. destruct (R8 a cs H) as [Ta|[]]. destruct (XD a); auto.
  - intros a. destruct (D a), (XD a); tauto.
  - intros a [Ta _]. auto.
  - intros a Qa. destruct (K a Qa) as [[Ta E]|NT]; [|right; tauto]. destruct (XD a); [right; tauto|left; auto].
  - intros a Xa. split; [tauto|]. now apply XR.
Qed.
Lemma gsim_release (X : nat -> Prop) Q w s : (forall a, X a \/ ~ X a) -> (forall o, ptr (ob w o) = None) -> gsimX X Q w s -> gsimX none Q w s.
Proof.
  intros XD P [T [B1 [B2 [R [D [Sx [K V]]]]]]]. exists (fun a => T a \/ X a), (hblk (hp w)), (hblk (hp (rw s))). destruct R as [R1 R2 R3 R4 R5 R6 R7 R8].
  split; [|split; [|split; [|split]]].
  - constructor; auto.
    + intros a [Ta|Xa]; auto. now apply V.
    + intros o a E. now rewrite P in E.
    + intros a cs H. destruct (R8 a cs H); auto.
  - intros a. destruct (D a), (XD a); tauto.
  - intros a [Ta|Xa]; [|left; now apply R4, V]. destruct (R5 a Ta) as [E1 E2]. rewrite E1, E2. auto.
  - intros a Qa. destruct (K a Qa) as [[Ta E]|NT].
    + left. split; [now left|]. destruct (R5 a Ta) as [E1 E2]. congruence.
    + destruct (XD a) as [Xa|NX]; [|right; tauto]. left. split; [now right|]. symmetry. now apply R4.
  - apply held_none.
Qed.
Lemma wrapped_dec ps a : In a (wrapped_mem ps) \/ ~ In a (wrapped_mem ps).
Proof. destruct (in_dec Nat.eq_dec a (wrapped_mem ps)); auto. Qed.
Lemma live_low w a own cs : at_rest w -> hblk (hp w) a = Live own cs -> (a < hnext (hp w))%nat.
Proof. intros [W _] H. destruct (le_lt_dec (hnext (hp w)) a) as [L|L]; [|exact L]. rewrite (ws_fresh _ W a L) in H. discriminate. Qed.

Lemma wcall_sim G N lm ps b w s : at_rest w -> gsimX none (wargs ps) w s ->
  (forall p, In p ps -> wraps p = true -> root s (r_mem (w_obj p)) = true /\ exists own cs, hblk (hp w) (r_mem (w_obj p)) = Live own cs) ->
  exists o w1 s1, wcall N lm ps b w = (o, w1) /\ wcall_g G N lm ps b s = (o, s1) /\
    gsimX (fun a => In a (wrapped_mem ps)) (match o with Done x => gave x | _ => none end) w1 s1 /\ moved (no_try b /\ exists x, o = Done x) w s w1 s1.
Proof.
  intros AR S H. apply (step_wcall (fun a => In a (wrapped_mem ps))).
  - intros p Hp Hw. now apply wrapped_in.
  - apply gsim_acquire; auto.
    + apply wrapped_dec.
    + intros a Ia. destruct (wrapped_mem_in _ _ Ia) as [p [Hp [Hw <-]]]. destruct (H p Hp Hw) as [H1 [own [cs H2]]]. split; [exact H1|]. eapply live_low; eauto.
    + intros o. apply AR.
Qed.

(* ------------------------------------------------------------- programs in R *)

Lemma make_typed t vs d w o w' : cells_typed w -> Forall (r_elem t) vs -> r_make t vs d w = (Done o, w') -> cells_typed w'.
Proof.
  intros [bt [C1 C2]] Fo. unfold r_make. destruct (_ <=? _); [|discriminate]. intros [= <- <-].
  exists (fun a => if Nat.eqb a (hnext (hp w)) then match t with TDouble => TDouble | _ => TInt end else bt a). split; cbn.
  - intros q a H. destruct (C1 q a H) as [L E]. split; [lia|]. destruct (Nat.eqb_spec a (hnext (hp w))) as [->|_]; [lia|exact E].
  - intros a own cs v. destruct (Nat.eqb_spec a (hnext (hp w))) as [->|_]; [|apply C2]. intros [= <- <-] Iv. apply in_map_iff in Iv. destruct Iv as [u [[= ->] Iu]].
    rewrite Forall_forall in Fo. specialize (Fo v Iu). destruct t, v; cbn in *; try contradiction; reflexivity.
Qed.
Lemma make_new t vs d w o w' : r_make t vs d w = (Done o, w') -> hblk (hp w') (r_mem o) = Live OwnR (map Some vs).
Proof. unfold r_make. destruct (_ <=? _); [|discriminate]. intros [= <- <-]. cbn. now rewrite Nat.eqb_refl. Qed.

Definition meets (w : world) (s : rworld) (av nv : list robj) : Prop :=
  (forall o, In o av -> r_real w o /\ root s (r_mem o) = true) /\ (forall o, In o nv -> In o av /\ nonempty w o).
Lemma nonempty_lengths w w' r : lengths_kept w w' -> r_real w r -> nonempty w r -> nonempty w' r.
Proof.
  intros Ln [xs [Hb _]] Ne own cs Hc. destruct (Ln _ OwnR _ ltac:(discriminate) Hb) as [c2 [H2 L2]]. rewrite Hc in H2. injection H2 as -> ->.
  intros ->. apply (Ne _ _ Hb). destruct (map Some xs); [reflexivity|discriminate].
Qed.
Lemma meets_next w s w1 s1 av nv : meets w s av nv -> lengths_kept w w1 -> (forall o, r_real w o -> r_real w1 o) -> root s1 = root s -> meets w1 s1 av nv.
Proof.
  intros [Ma Mn] Ln Rl Ro. split.
  - intros o Io. destruct (Ma o Io) as [H1 H2]. split; [auto|congruence].
  - intros o Io. destruct (Mn o Io) as [H1 H2]. split; [exact H1|]. eapply nonempty_lengths; eauto. now apply Ma.
Qed.
Lemma meets_gain w s av nv o : meets w s av nv -> r_real w o -> meets w (gained s o) (o :: av) nv.
Proof.
  intros [Ma Mn] Ro. split.
  - intros x [<-|Ix]; (split; [|unfold gained; cbn [root]]); auto; [now rewrite Nat.eqb_refl|now apply Ma|]. rewrite (proj2 (Ma x Ix)). apply orb_true_r.
  - intros x Ix. destruct (Mn x Ix). split; [now right|assumption].
Qed.
Lemma kept_lengths w w' : foreign_kept w w' -> lengths_kept w w'.
Proof. intros F a own cs NO Ha. exists cs. split; [now apply F|reflexivity]. Qed.

Section Ini.
Variable ini : bool.
Definition wprog_ends (r : unit + outcome flow) (w' : world) : Prop :=
  match r with
  | inl _ => at_rest w' /\ cells_typed w'
  | inr (Undef u) => allowed ini u
  | inr (Done f) => f = More
  | inr (Thrown e) => e = BadAlloc
  end.
Lemma wprog_sim G N lm p : forall av nv w s, gsim none w s -> at_rest w -> hlim (hp w) < 2 ^ 31 -> cells_typed w -> wprog_ok av nv p ->
  (ini = true -> wprog_writes_all p) -> meets w s av nv ->
  exists r w' s', run_w N lm p w = (r, w') /\ run_w_g G N lm p s = (r, s') /\ but_garbage w' s' /\ wprog_ends r w' /\ (forall a, wprog_avoids a p -> forall own cs, own <> OwnCpp ->
    hblk (hp w) a = Live own cs -> hblk (hp w') a = Live own cs).
Proof.
  induction p as [|ps b k IH|t vs d k IH|o k IH|keep n k IH]; intros av nv w s S AR HL CT Ok Wr Me; cbn [run_w run_w_g wprog_ok wprog_writes_all wprog_avoids] in *.
  - exists (inl tt), w, s. split; [reflexivity|]. split; [reflexivity|]. split; [eapply gsim_garbage; exact S|]. split; [split; assumption|auto].
  - destruct Ok as [OK [RT [Ia [KN KS]]]]. pose proof Me as [Ma Mn].
    assert (RE : forall p, In p ps -> r_real w (w_obj p) /\ (wraps p = true -> nonempty w (w_obj p))).
    { intros p Hp. destruct (Ia p Hp) as [H1 H2]. split; [now apply Ma|]. intros Hw. now apply Mn, H2. }
    destruct (wcall_sim G N lm ps b w s AR) as [r [w1 [s1 [E [E' [S1 [Ro _]]]]]]].
    { apply gsim_rooted; [exact S|]. intros a [q [Iq ->]]. unfold kept. destruct (Ia q Iq) as [Iq' _]. rewrite (proj2 (Ma _ Iq')). reflexivity. }
    { intros p Hp _. destruct (Ia p Hp) as [Ip _]. destruct (Ma _ Ip) as [[xs [Hb _]] Hr]. split; [exact Hr|]. eauto. }
    pose proof (wcall_safe ini N lm ps b w AR HL OK (fun E => proj1 (Wr E)) RE) as Q. rewrite E in Q. destruct Q as [U [Q _]].
    pose proof (wcall_lengths ini N lm ps b w AR HL OK (fun E => proj1 (Wr E)) RE r w1 E) as Ln.
    pose proof (wcall_real ini N lm ps b w AR HL OK (fun E => proj1 (Wr E)) RE r w1 CT E) as Rl.
    rewrite E, E'. pose proof (gsim_garbage _ _ _ S1) as BG.
    assert (Av : forall a, ~ In a (wrapped_mem ps) /\ (forall o, wprog_avoids a (k o)) -> forall own cs, own <> OwnCpp -> hblk (hp w) a = Live own cs -> hblk (hp w1) a = Live own cs).
    { intros a [Na _] own cs NO Ha. now apply U. }
    assert (Stop : forall o : outcome flow, wprog_ends (inr o) w1 -> exists r' w' s', (@inr unit _ o, w1) = (r', w') /\ (@inr unit _ o, s1) = (r', s') /\ but_garbage w' s' /\ wprog_ends r' w' /\
      (forall a, ~ In a (wrapped_mem ps) /\ (forall o, wprog_avoids a (k o)) -> forall own cs, own <> OwnCpp -> hblk (hp w) a = Live own cs -> hblk (hp w') a = Live own cs)).
    { intros o Ho. exists (inr o), w1, s1. auto. }
    destruct r as [[| | |o|]|[m|]|u]; cbn [wends over] in *; try (apply Stop; cbn; auto; contradiction).
    + destruct Q as [NR _]. contradiction.
    + destruct Q as [A1 [L1 R1]]. specialize (Ln eq_refl). destruct (Rl eq_refl) as [C1 R2].
      destruct (IH (Some o) (o :: av) nv w1 (gained s1 o)) as [r [w2 [s2 [F1 [F2 [F3 [F4 F5]]]]]]]; auto.
      * apply gsim_gained. eapply gsim_release; [apply wrapped_dec|apply A1|exact S1].
      * intros Ei. now apply Wr.
      * apply meets_gain; [|exact R1]. eapply meets_next; eauto.
      * exists r, w2, s2. split; [exact F1|]. split; [exact F2|]. split; [exact F3|]. split; [exact F4|]. intros a [Na Ka] own cs NO Ha. apply F5; auto.
    + destruct Q as [A1 L1]. specialize (Ln eq_refl). destruct (Rl eq_refl) as [C1 R2].
      destruct (IH None av nv w1 s1) as [r [w2 [s2 [F1 [F2 [F3 [F4 F5]]]]]]]; auto.
      * eapply gsim_release; [apply wrapped_dec|apply A1|exact S1].
      * intros Ei. now apply Wr.
      * eapply meets_next; eauto.
      * exists r, w2, s2. split; [exact F1|]. split; [exact F2|]. split; [exact F3|]. split; [exact F4|]. intros a [Na Ka] own cs NO Ha. apply F5; auto.
  - destruct Ok as [Fo Kk]. destruct (step_make G t vs d True w s S) as [r [w1 [s1 [E [E' [S1 [R1 _]]]]]]]. pose proof (make_safe t vs d w AR HL Fo) as Q. rewrite E in Q. destruct Q as [FK Q].
    pose proof (gsim_garbage _ _ _ S1) as BG. rewrite E, E'. destruct r as [o|e|u]; [| |contradiction].
    + destruct Q as [A1 [L1 Re]]. pose proof (make_typed t vs d w o w1 CT Fo E) as C1.
      destruct (IH o (o :: av) (match vs with [] => nv | _ => o :: nv end) w1 (gained s1 o)) as [r [w2 [s2 [F1 [F2 [F3 [F4 F5]]]]]]]; auto.
      * now apply gsim_gained.
      * assert (M1 : meets w1 (gained s1 o) (o :: av) nv).
        { apply meets_gain; [|exact Re]. eapply meets_next; [exact Me|now apply kept_lengths| |exact R1]. intros x Rx. eapply real_kept; eauto. }
        destruct vs as [|v vs]; [exact M1|]. destruct M1 as [Ma Mn]. split; [exact Ma|]. intros x [<-|Ix]; [|auto]. split; [now left|].
        intros own cs H. rewrite (make_new _ _ _ _ _ _ E) in H. injection H as <- <-. discriminate.
      * exists r, w2, s2. split; [exact F1|]. split; [exact F2|]. split; [exact F3|]. split; [exact F4|]. intros a Ka own cs NO Ha. apply F5; auto.
    + exists (inr (Thrown e)), w1, s1. split; [reflexivity|]. split; [reflexivity|]. split; [exact BG|]. split; [exact Q|]. intros a _ own cs NO Ha. now apply FK.
  - destruct Ok as [Io [Kn Kc]]. pose proof Me as [Ma Mn]. destruct (Ma o Io) as [Ro Rt]. assert (E : r_cells (rw s) o = r_cells w o).
    { unfold r_cells. rewrite (gsim_kept none w s (r_mem o) S); [reflexivity|]. unfold kept. now rewrite Rt. }
    rewrite E. destruct (r_cells w o) as [|c cs] eqn:Ec.
    + destruct (IH [] av nv w s) as [r [w2 [s2 [F1 [F2 [F3 [F4 F5]]]]]]]; auto. exists r, w2, s2. split; [exact F1|]. split; [exact F2|]. split; [exact F3|]. split; [exact F4|]. intros a Ka. now apply F5.
    + destruct (IH (c :: cs) av (o :: nv) w s) as [r [w2 [s2 [F1 [F2 [F3 [F4 F5]]]]]]]; auto.
      * split; [exact Ma|]. intros x [<-|Ix]; [|auto]. split; [exact Io|]. intros own cs' H Hc. unfold r_cells in Ec. rewrite H in Ec. congruence.
      * exists r, w2, s2. split; [exact F1|]. split; [exact F2|]. split; [exact F3|]. split; [exact F4|]. intros a Ka. now apply F5.
  - destruct Me as [Ma Mn]. destruct (IH (filter (fun o => keep (r_mem o)) av) (filter (fun o => keep (r_mem o)) nv) w (mkRW (rw s) (skipn n (pstk s)) (fun a => keep a && root s a))) as [r [w2 [s2 [F1 [F2 [F3 [F4 F5]]]]]]]; auto.
    + now apply gsim_forget.
    + split; intros o Io; apply filter_In in Io; destruct Io as [Io Kp].
      * destruct (Ma o Io) as [H1 H2]. split; [exact H1|]. cbn [root]. now rewrite Kp, H2.
      * destruct (Mn o Io) as [H1 H2]. split; [apply filter_In; now split|exact H2].
    + exists r, w2, s2. auto 10.
Qed.
End Ini.
