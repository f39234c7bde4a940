(** Lemmas about printed text. *)
From Coq Require Import ZArith List Bool String Ascii Lia Decimal DecimalFacts DecimalString DecimalZ DecimalPos DecimalN.
From Verif Require Import Base Num StoreModel VecModel OutModel TextModel Spec SpecExpr SpecVec SpecSub SpecOut SpecText
  StoreProofs StoreOps VecProofs SubsetProofs VecThms OutProofs.
Import ListNotations.
Open Scope Z_scope.
Local Notation length := List.length (only parsing).
Local Open Scope string_scope.

(* -------------------------------------------------------------- strings *)

Lemma app_nil_s s : s ++ "" = s. Proof. induction s; cbn; congruence. Qed.
Lemma app_assoc_s a b c : (a ++ b) ++ c = a ++ (b ++ c). Proof. induction a; cbn; congruence. Qed.

Lemma without_app c a b : without c a -> without c b -> without c (a ++ b).
Proof. induction a; cbn; tauto. Qed.

Lemma cut_step c : forall t cur s, without c t -> cut_from c cur (t ++ String c s) = option_map (cons (cur ++ t)) (cut_from c "" s).
Proof.
  induction t as [|a t IH]; intros cur s H; cbn [append cut_from].
  - now rewrite Ascii.eqb_refl, app_nil_s.
  - destruct H as [N H]. destruct (Ascii.eqb_spec a c); [contradiction|]. rewrite (IH _ s H), app_assoc_s. reflexivity.
Qed.
Lemma cut_cons c t s : without c t -> cut c (t ++ String c s) = option_map (cons t) (cut c s).
Proof. intros H. unfold cut. now rewrite (cut_step c t "" s H). Qed.

(** Pieces put one after the other. *)
Fixpoint pieces (c : ascii) (ts : list string) : string :=
  match ts with [] => "" | t :: r => t ++ String c (pieces c r) end.
Lemma cut_pieces c ts : Forall (without c) ts -> cut c (pieces c ts) = Some ts.
Proof. induction 1 as [|t ts H _ IH]; [reflexivity|]. cbn [pieces]. rewrite (cut_cons _ _ _ H), IH. reflexivity. Qed.
Lemma without_pieces c d ts : c <> d -> Forall (without c) ts -> without c (pieces d ts).
Proof. intros N. induction 1 as [|t ts H _ IH]; cbn [pieces]; [exact I|]. apply without_app; auto. split; auto. Qed.
Lemma pieces_app c : forall a b, pieces c (a ++ b)%list = pieces c a ++ pieces c b.
Proof. induction a as [|t a IH]; intros b; cbn [pieces List.app append]; [reflexivity|]. rewrite IH, app_assoc_s. reflexivity. Qed.

Lemma alls_map_cut c ts : Forall (Forall (without c)) ts -> alls (map (cut c) (map (pieces c) ts)) = Some ts.
Proof. induction 1 as [|t ts H _ IH]; [reflexivity|]. cbn [map alls]. rewrite (cut_pieces _ _ H), IH. reflexivity. Qed.

(** A table as text. *)
Definition sheet (c : ascii) (g : list (list string)) : string := pieces newline (map (pieces c) g).
Lemma table_sheet c g : c <> newline -> Forall (Forall (without c)) g -> Forall (Forall (without newline)) g -> table c (sheet c g) = Some g.
Proof.
  intros N H1 H2. unfold table, sheet. rewrite cut_pieces; [now apply alls_map_cut|].
  rewrite Forall_map. eapply Forall_impl; [|exact H2]. intros ts H. apply without_pieces; auto.
Qed.

(* ------------------------------------------------------ decimal numbers *)

Ltac conv_digits := match goal with
  | IH : forall p, _ = Some (Z.pos (Pos.of_uint_acc ?d p)) |- _ = Some (Z.pos (Pos.of_uint_acc ?d ?q)) =>
      rewrite <- (IH q); match goal with |- (match digit ?c with _ => _ end) = _ =>
        let e := eval vm_compute in (digit c) in change (digit c) with e end; cbv iota; f_equal; lia end.
Lemma digits_acc : forall d p, digits (Z.pos p) (NilEmpty.string_of_uint d) = Some (Z.pos (Pos.of_uint_acc d p)).
Proof.
  induction d; intros p; cbn [NilEmpty.string_of_uint digits Pos.of_uint_acc]; [reflexivity|..]; conv_digits.
Qed.

(** Numbers without leading zeros. *)
Lemma unsigned_uint d : unorm d = d -> unsigned (NilEmpty.string_of_uint d) = Some (Z.of_N (Pos.of_uint d)).
Proof.
  intros U. destruct d; [discriminate U|..]; cbn [NilEmpty.string_of_uint unsigned Pos.of_uint];
    match goal with |- context [digit ?c] => let e := eval vm_compute in (digit c) in change (digit c) with e end; cbv iota;
    cbn [Z.eqb Pos.eqb].
  { destruct (uint_eq_dec d Nil) as [-> | N]; [reflexivity|]. exfalso.
    rewrite unorm_D0 in U. pose proof (nb_digits_unorm d N) as H. rewrite U in H. cbn [nb_digits] in H. lia. }
  all: rewrite digits_acc; reflexivity.
Qed.

Lemma number_minus d : number (String "-" d) = match unsigned d with Some z => if (z =? 0)%Z then None else Some (- z) | None => None end.
Proof. reflexivity. Qed.
Lemma number_digit d : d <> Nil -> number (NilEmpty.string_of_uint d) = unsigned (NilEmpty.string_of_uint d).
Proof. now destruct d. Qed.
Lemma nilzero d : d <> Nil -> NilZero.string_of_uint d = NilEmpty.string_of_uint d.
Proof. now destruct d. Qed.

(** The text of an integer reads back as that integer. *)
Lemma number_int z : number (NilZero.string_of_int (Z.to_int z)) = Some z.
Proof.
  pose proof (of_to z) as E. pose proof (to_of (Z.to_int z)) as F. rewrite E in F.
  destruct (Z.to_int z) as [d|d]; cbn [norm] in F.
  - injection F as F. cbn [NilZero.string_of_int]. assert (N : d <> Nil) by (intros ->; discriminate F).
    rewrite (nilzero _ N), (number_digit _ N), unsigned_uint by congruence. rewrite <- E. reflexivity.
  - destruct (nzhead d) eqn:Q; [discriminate F|..]; injection F as F;
      (cbn [NilZero.string_of_int]; assert (N : d <> Nil) by (subst d; discriminate);
       rewrite (nilzero _ N), number_minus, unsigned_uint by (unfold unorm; rewrite Q; congruence);
       cbn [Z.of_int] in E; unfold Z.of_uint in E;
       rewrite <- E; destruct (Pos.of_uint d) eqn:P;
         [exfalso; rewrite F in P; cbn [Pos.of_uint] in P; (discriminate P || exact (nzhead_nonzero _ _ Q)) | reflexivity]).
Qed.

(** It has neither blanks nor tabulators nor newlines. *)
Lemma clean_uint c d : In c [blank; tabulator; newline] -> without c (NilEmpty.string_of_uint d).
Proof.
  intros H. induction d; cbn [NilEmpty.string_of_uint without]; auto;
    (split; [|exact IHd]; intros <-; revert H; vm_compute; intuition discriminate).
Qed.
Lemma clean_int c z : In c [blank; tabulator; newline] -> without c (NilZero.string_of_int z).
Proof.
  intros H. assert (U : forall d, without c (NilZero.string_of_uint d)).
  { intros d. destruct (uint_eq_dec d Nil) as [-> | N]; [|rewrite (nilzero _ N); now apply clean_uint].
    cbn. split; [|exact I]. intros <-. revert H. vm_compute. intuition discriminate. }
  destruct z as [d|d]; cbn [NilZero.string_of_int]; [apply U|]. split; [|apply U].
  intros <-. revert H. vm_compute. intuition discriminate.
Qed.
Lemma text_clean ds a c v : clean ds -> In c [blank; tabulator; newline] -> without c (text ds a v).
Proof.
  intros C H. destruct v as [b|z|d]; cbn [text]; [|now apply clean_int|now apply C].
  assert (N : forall k, In k ["t"; "r"; "u"; "e"; "f"; "a"; "l"; "s"; "1"; "0"]%char -> k <> c)
    by (intros k K E; subst k; cbn in H; destruct H as [<- | [<- | [<- | []]]]; revert K; vm_compute; intuition discriminate).
  destruct a, b; cbn [without]; repeat split; apply N; vm_compute; tauto.
Qed.
Lemma text_says ds a v : says ds a v (text ds a v).
Proof. destruct v as [b|z|d]; cbn [says text]; [|apply number_int|reflexivity]. destruct a, b; cbn; auto. Qed.

(** A text of a logical or whole number says that value alone. *)
Lemma says_words ds v v' t : not_double v -> not_double v' -> says ds true v t -> says ds true v' t -> v = v'.
Proof.
  destruct v as [b|z|d], v' as [b'|z'|d']; cbn [not_double says]; intros N N' H H'; try contradiction; try congruence.
  - cbn in H, H'. destruct H as [H|[H|[]]], H' as [H'|[H'|[]]]; congruence.
  - exfalso. cbn in H. destruct H as [H|[H|[]]]; injection H as <- <-; revert H'; vm_compute; discriminate.
  - exfalso. cbn in H'. destruct H' as [H'|[H'|[]]]; injection H' as <- <-; revert H; vm_compute; discriminate.
Qed.

(* ---------------------------------------------------------------- loops *)

Lemma bindS {A B} (m : M screen A) (f : A -> M screen B) s a s' : m s = (Done a, s') -> bind m f s = f a s'.
Proof. intros H. unfold bind. now rewrite H. Qed.
Lemma getS {B} (f : screen -> M screen B) s : bind get f s = f s s.
Proof. reflexivity. Qed.
Lemma inS_done {A} (m : M world A) s a : m (sw s) = (Done a, sw s) -> inS m s = (Done a, s).
Proof. intros H. unfold inS. rewrite H. now destruct s. Qed.
Lemma inS_thrown {A} (m : M world A) s x : m (sw s) = (Thrown x, sw s) -> inS m s = (Thrown x, s).
Proof. intros H. unfold inS. rewrite H. now destruct s. Qed.
Lemma put_val_done ds v sep s : put_val ds v sep s = (Done tt, mkScr (sw s) (alpha s) (out s ++ (text ds (alpha s) v ++ sep))).
Proof. unfold put_val, put, bind, get. cbn [sw alpha out]. now rewrite app_assoc_s. Qed.

Definition flagged (b : bool) : M screen unit := if b then set_alpha else ret tt.
Lemma flagged_done b s : flagged b s = (Done tt, mkScr (sw s) (alpha s || b) (out s)).
Proof. destruct b; cbn [flagged]; unfold set_alpha, ret; [now rewrite orb_true_r|]. rewrite orb_false_r. now destruct s. Qed.

Lemma put_prefix ds b c (f : Z -> M world val) w : forall us n i a o,
  (forall j, (j < length us)%nat -> f (i + Z.of_nat j) w = (Done (nth j us (VB false)), w)) -> (length us <= n)%nat ->
  exists a', a' = (a || (b && negb (match us with [] => true | _ => false end)))%bool /\
  put_from ds (flagged b) (String c "") n i f (mkScr w a o) =
  put_from ds (flagged b) (String c "") (n - length us) (i + Z.of_nat (length us)) f
    (mkScr w a' (o ++ pieces c (map (text ds (a || b)) us))).
Proof.
  induction us as [|u us IH]; intros n i a o H L.
  - exists a. split; [now rewrite andb_false_r, orb_false_r|]. cbn [length map pieces]. rewrite Nat.sub_0_r, Z.add_0_r, app_nil_s. reflexivity.
  - destruct n as [|n]; [cbn in L; lia|]. cbn [put_from length Nat.sub].
    rewrite (bindS _ _ _ _ _ (flagged_done b _)). cbn [sw alpha out].
    pose proof (H 0%nat ltac:(cbn; lia)) as H0. rewrite Z.add_0_r in H0. cbn [nth] in H0.
    rewrite (bindS _ _ _ _ _ (inS_done _ (mkScr w (a || b) o) _ H0)).
    rewrite (bindS _ _ _ _ _ (put_val_done _ _ _ _)). cbn [sw alpha out].
    destruct (IH n (i + 1) (a || b)%bool (o ++ (text ds (a || b) u ++ String c ""))) as [a' [A E]].
    { intros j Hj. replace (i + 1 + Z.of_nat j) with (i + Z.of_nat (S j)) by lia. apply (H (S j)). cbn; lia. }
    { cbn in L. lia. }
    exists (a || b)%bool. split; [cbn [negb]; now rewrite andb_true_r|].
    rewrite E. replace (i + 1 + Z.of_nat (length us)) with (i + Z.of_nat (S (length us))) by lia.
    f_equal. subst a'. f_equal.
    + destruct a, b, us; reflexivity.
    + cbn [map pieces]. rewrite !app_assoc_s. cbn [append].
      replace (a || b || b)%bool with (a || b)%bool by (now destruct a, b). reflexivity.
Qed.
Lemma put_all ds b c (f : Z -> M world val) w us i a o :
  (forall j, (j < length us)%nat -> f (i + Z.of_nat j) w = (Done (nth j us (VB false)), w)) ->
  put_from ds (flagged b) (String c "") (length us) i f (mkScr w a o) =
  (Done tt, mkScr w (a || (b && negb (match us with [] => true | _ => false end)))%bool (o ++ pieces c (map (text ds (a || b)) us))).
Proof.
  intros H. destruct (put_prefix ds b c f w us (length us) i a o H (Nat.le_refl _)) as [a' [-> E]].
  rewrite E, Nat.sub_diag. reflexivity.
Qed.
Lemma put_stop ds b c (f : Z -> M world val) w us n i a o x :
  (forall j, (j < length us)%nat -> f (i + Z.of_nat j) w = (Done (nth j us (VB false)), w)) -> (length us < n)%nat ->
  f (i + Z.of_nat (length us)) w = (Thrown x, w) ->
  put_from ds (flagged b) (String c "") n i f (mkScr w a o) =
  (Thrown x, mkScr w (a || b)%bool (o ++ pieces c (map (text ds (a || b)) us))).
Proof.
  intros H L X. destruct (put_prefix ds b c f w us n i a o H (Nat.lt_le_incl _ _ L)) as [a' [-> E]]. rewrite E.
  destruct (n - length us)%nat as [|k] eqn:K; [lia|]. cbn [put_from].
  rewrite (bindS _ _ _ _ _ (flagged_done b _)). cbn [sw alpha out].
  unfold bind at 1. rewrite (inS_thrown _ (mkScr w _ _) x X). do 2 f_equal. destruct a, b, us; reflexivity.
Qed.

Lemma lines_all c (f : Z -> M screen unit) (g : nat -> list string) w a : forall n i o,
  (forall k o, (i <= k < i + n)%nat -> f (Z.of_nat k) (mkScr w a o) = (Done tt, mkScr w a (o ++ pieces c (g k)))) ->
  put_lines n (Z.of_nat i) f (mkScr w a o) = (Done tt, mkScr w a (o ++ sheet c (map g (seq i n)))).
Proof.
  induction n as [|n IH]; intros i o H; [cbn; now rewrite app_nil_s|]. cbn [put_lines seq map].
  rewrite (bindS _ _ _ _ _ (H i o ltac:(lia))). unfold bind at 1, put at 1. cbn [sw alpha out].
  replace (Z.of_nat i + 1) with (Z.of_nat (S i)) by lia. rewrite IH by (intros; apply H; lia).
  unfold sheet. cbn [map pieces]. rewrite !app_assoc_s. reflexivity.
Qed.

(** The text of a flat vector and of a matrix. *)
Lemma text_flat ds lm e us s : eim (sw s) e = false -> yields lm (sw s) e us ->
  print_text ds lm e s = (Done tt, mkScr (sw s) (if us then alpha s else true) (out s ++ sheet blank [map (text ds true) (map (read e) us)])).
Proof.
  intros Fl [Sz El]. unfold print_text. rewrite getS. cbv zeta. rewrite Fl, Sz, Nat2Z.id. destruct s as [w a o]. cbn [sw alpha out] in *.
  rewrite <- (map_length (read e) us).
  rewrite (bindS _ _ _ _ _ (put_all ds true blank (vat lm e) w (map (read e) us) 0 a o
    ltac:(intros j Hj; rewrite map_length in Hj; rewrite Z.add_0_l, (nth_indep _ (VB false) (read e (VB false))), map_nth by (now rewrite map_length); now apply vat_done, El))).
  unfold put. cbn [sw alpha out]. unfold sheet. cbn [map pieces]. rewrite app_assoc_s, orb_true_r. f_equal. f_equal. destruct us, a; reflexivity.
Qed.
Lemma text_matrix ds lm e us (r c : nat) s : eim (sw s) e = true -> edim rows (sw s) e = Done (Z.of_nat r) -> edim cols (sw s) e = Done (Z.of_nat c) ->
  yields lm (sw s) e us -> length us = (r * c)%nat -> Z.of_nat (length us) < 2 ^ 64 ->
  print_text ds lm e s = (Done tt, mkScr (sw s) (alpha s) (out s ++
    sheet tabulator (map (fun i => map (text ds (alpha s)) (map (fun j => read e (nth (j * r + i) us (VB false))) (seq 0 c))) (seq 0 r)))).
Proof.
  intros Im R C [Sz El] L B. unfold print_text. rewrite getS. cbv zeta. rewrite Im, R. destruct s as [w a o]. cbn [sw alpha out] in *.
  unfold bind at 1, lift at 1. rewrite Nat2Z.id. apply (lines_all tabulator _ _ w a r 0). intros i o' Hi.
  rewrite C. unfold bind at 1, lift at 1. rewrite Nat2Z.id.
  set (vs := map (fun j => read e (nth (j * r + i) us (VB false))) (seq 0 c)).
  assert (Lv : length vs = c) by (unfold vs; now rewrite map_length, seq_length). rewrite <- Lv at 1.
  change (ret tt) with (flagged false).
  rewrite (put_all ds false tabulator).
  - cbn [andb]. now rewrite !orb_false_r.
  - intros j Hj. rewrite Lv in Hj. rewrite Z.add_0_l.
    assert (Hx : (j * r + i < length us)%nat) by (rewrite L; nia).
    rewrite wrap64_small by nia. replace (Z.of_nat j * Z.of_nat r + Z.of_nat i) with (Z.of_nat (j * r + i)) by lia.
    unfold vs. rewrite (nth_indep _ (VB false) (read e (nth (0 * r + i) us (VB false)))) by (now rewrite map_length, seq_length).
    rewrite (map_nth (fun j => read e (nth (j * r + i) us (VB false))) (seq 0 c) 0%nat), seq_nth by lia. cbn [Nat.add].
    now apply vat_done, El.
Qed.
