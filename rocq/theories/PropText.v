(** Property C94: the text written by print and operator<<. *)
From Coq Require Import ZArith List Bool String Ascii Lia.
From Verif Require Import Base Num StoreModel VecModel OutModel DerivModel TextModel Spec SpecExpr SpecVec SpecSub SpecOut SpecText
  StoreProofs StoreOps VecProofs SubsetProofs VecThms OutProofs SubsetThms TextProofs Examples PropVec PropSubset PropOut.
Import ListNotations.
Open Scope Z_scope.
Local Notation length := List.length (only parsing).
Local Open Scope string_scope.

Lemma tab_in c : c = blank \/ c = tabulator -> In c [blank; tabulator; newline] /\ c <> newline.
Proof. intros [-> | ->]; (split; [cbn; auto|discriminate]). Qed.
Lemma table_texts ds a c g : clean ds -> c = blank \/ c = tabulator ->
  table c (sheet c (map (map (text ds a)) g)) = Some (map (map (text ds a)) g).
Proof.
  intros C H. destruct (tab_in _ H) as [I N]. apply table_sheet; auto; rewrite Forall_map; apply Forall_forall; intros l _;
    rewrite Forall_map; apply Forall_forall; intros v _; apply text_clean; auto. cbn. auto.
Qed.
Lemma says_texts ds a vs : Forall2 (says ds a) vs (map (text ds a) vs).
Proof. induction vs; cbn; constructor; auto using text_says. Qed.
Lemma says_rows ds a g : Forall2 (Forall2 (says ds a)) g (map (map (text ds a)) g).
Proof. induction g; cbn; constructor; auto using says_texts. Qed.

(** The elements of a vector, or of an expression without matrices, are written
    in order on one line, each followed by a blank; logical values as words.
    Nothing else changes but the flag of the stream. *)
Theorem c94_vector : forall ds lm s e us, clean ds -> flat (sw s) e -> yields lm (sw s) e us ->
  exists t ts, print_text ds lm e s = (Done tt, mkScr (sw s) (if us then alpha s else true) (out s ++ t)) /\
    table blank t = Some [ts] /\ Forall2 (says ds true) (map (read e) us) ts.
Proof.
  intros ds lm s e us C Fl Y. exists (sheet blank [map (text ds true) (map (read e) us)]), (map (text ds true) (map (read e) us)).
  split; [apply text_flat; auto using flat_im|]. split; [|apply says_texts].
  apply (table_texts ds true blank [map (read e) us] C). now left.
Qed.
Print Assumptions c94_vector.

(** For a matrix with the columns [cs], of length r, there are r lines; line i
    has element i of every column, each followed by a tabulator; logical values
    are words only if the flag was set before. *)
Lemma text_columns ds lm s rho e r cs : env_of (sw s) rho e -> shaped (sw s) rho (Z.of_nat r) (Z.of_nat (length cs)) e ->
  yields lm (sw s) e (List.concat cs) -> Forall (fun col => length col = r) cs -> Z.of_nat (length (List.concat cs)) < 2 ^ 64 ->
  print_text ds lm e s = (Done tt, mkScr (sw s) (alpha s) (out s ++ sheet tabulator (map (map (text ds (alpha s)))
     (map (fun i => map (fun col => read e (nth i col (VB false))) cs) (seq 0 r))))).
Proof.
  intros EN Sh Y F B. destruct (shaped_facts _ _ _ _ _ EN Sh) as [Im [R [C _]]].
  rewrite (text_matrix ds lm e (List.concat cs) r (length cs)); auto; [|now apply concat_len].
  pose proof (f_equal (map (map (read e))) (rows_cols (VB false) r cs F)) as E. rewrite !map_map in E.
  rewrite (map_ext _ (fun i => map (fun j => read e (nth (j * r + i) (List.concat cs) (VB false))) (seq 0 (length cs)))) in E by (intros; apply map_map).
  do 5 f_equal. apply (f_equal (map (map (text ds (alpha s))))) in E. rewrite map_map in E. rewrite E. f_equal. apply map_ext. intros. apply map_map.
Qed.
Theorem c94_matrix : forall ds lm s rho e r cs, clean ds -> env_of (sw s) rho e -> shaped (sw s) rho (Z.of_nat r) (Z.of_nat (length cs)) e ->
  yields lm (sw s) e (List.concat cs) -> Forall (fun col => length col = r) cs -> Z.of_nat (length (List.concat cs)) < 2 ^ 64 ->
  exists t g, print_text ds lm e s = (Done tt, mkScr (sw s) (alpha s) (out s ++ t)) /\ table tabulator t = Some g /\
    Forall2 (Forall2 (says ds (alpha s))) (map (fun i => map (fun col => read e (nth i col (VB false))) cs) (seq 0 r)) g.
Proof.
  intros ds lm s rho e r cs C EN Sh Y F B.
  eexists _, _. split; [exact (text_columns ds lm s rho e r cs EN Sh Y F B)|].
  split; [apply (table_texts ds (alpha s) tabulator _ C); now right|]. apply says_rows.
Qed.
Print Assumptions c94_matrix.

(** Whole numbers read back: the line of an integer vector holds its elements,
    the lines of an integer matrix its rows. *)
Lemma numbers_back a ds zs : forall ts, Forall2 (says ds a) (map VI zs) ts -> alls (map number ts) = Some zs.
Proof.
  induction zs as [|z zs IH]; intros ts H; inversion H; subst; [reflexivity|]. cbn [map alls says] in *.
  match goal with K : number _ = _ |- _ => rewrite K end. erewrite IH by eassumption. reflexivity.
Qed.
Lemma tables_back a ds zss : forall g, Forall2 (Forall2 (says ds a)) (map (map VI) zss) g -> alls (map (fun ts => alls (map number ts)) g) = Some zss.
Proof.
  induction zss as [|zs zss IH]; intros g H; inversion H; subst; [reflexivity|]. cbn [map alls].
  erewrite numbers_back, IH by eassumption. reflexivity.
Qed.
Theorem c94_integers : forall ds lm s e zs, clean ds -> own_type e = true -> flat (sw s) e -> yields lm (sw s) e (map VI zs) ->
  exists t, out (snd (print_text ds lm e s)) = out s ++ t /\ numbers blank t = Some [zs].
Proof.
  intros ds lm s e zs C O Fl Y. destruct (c94_vector ds lm s e _ C Fl Y) as [t [ts [E [T S]]]].
  exists t. rewrite E. split; [reflexivity|]. unfold numbers. rewrite T.
  replace (map (read e) (map VI zs)) with (map VI zs) in S.
  - apply (tables_back true ds [zs] [ts]). constructor; [exact S|constructor].
  - rewrite map_map. apply map_ext. intros z. unfold read. now rewrite O.
Qed.
Print Assumptions c94_integers.
Theorem c94_integer_matrix : forall ds lm s rho e r zss, clean ds -> own_type e = true -> env_of (sw s) rho e ->
  shaped (sw s) rho (Z.of_nat r) (Z.of_nat (length zss)) e -> yields lm (sw s) e (List.concat (map (map VI) zss)) ->
  Forall (fun col => length col = r) zss -> Z.of_nat (r * length zss) < 2 ^ 64 ->
  exists t, out (snd (print_text ds lm e s)) = out s ++ t /\
    numbers tabulator t = Some (map (fun i => map (fun col => nth i col 0) zss) (seq 0 r)).
Proof.
  intros ds lm s rho e r zss C O EN Sh Y F B.
  assert (F' : Forall (fun col : list val => length col = r) (map (map VI) zss)).
  { rewrite Forall_map. eapply Forall_impl; [|exact F]. intros l H. now rewrite map_length. }
  assert (Sh' : shaped (sw s) rho (Z.of_nat r) (Z.of_nat (length (map (map VI) zss))) e) by (now rewrite map_length).
  destruct (c94_matrix ds lm s rho e r (map (map VI) zss) C EN Sh' Y F') as [t [g [E [T S]]]].
  { rewrite (concat_len r _ F'), map_length. exact B. }
  exists t. rewrite E. split; [reflexivity|]. unfold numbers. rewrite T. apply (tables_back (alpha s) ds).
  replace (map (map VI) (map (fun i => map (fun col => nth i col 0) zss) (seq 0 r)))
    with (map (fun i => map (fun col => read e (nth i col (VB false))) (map (map VI) zss)) (seq 0 r)); [exact S|].
  rewrite map_map. apply map_ext_in. intros i Hi. apply in_seq in Hi. rewrite !map_map. apply map_ext_in. intros col Hc.
  rewrite Forall_forall in F. specialize (F col Hc). unfold read. rewrite O.
  rewrite (nth_indep _ (VB false) (VI 0)) by (rewrite map_length; lia). now rewrite map_nth.
Qed.
Print Assumptions c94_integer_matrix.

(** Two vectors of integers or logical values that are written alike have the
    same elements, of the same type; also on streams in different states. *)
Lemma says_same ds : forall us vs ts, Forall not_double us -> Forall not_double vs ->
  Forall2 (says ds true) us ts -> Forall2 (says ds true) vs ts -> us = vs.
Proof.
  induction us as [|u us IH]; intros vs ts U V H K; inversion H; subst; inversion K; subst; auto.
  inversion U; inversion V; subst. f_equal; [eapply says_words; eauto|eapply IH; eauto].
Qed.
Lemma append_cancel : forall o t t', o ++ t = o ++ t' -> t = t'.
Proof. induction o; cbn; intros t t' E; [exact E|]. injection E as E. auto. Qed.
Lemma read_own e us : own_type e = true -> map (read e) us = us.
Proof. intros O. rewrite <- (map_id us) at 2. apply map_ext. intros. unfold read. now rewrite O. Qed.
Theorem c94_faithful : forall ds lm s s' e e' us vs t, clean ds -> own_type e = true -> own_type e' = true ->
  flat (sw s) e -> flat (sw s') e' -> yields lm (sw s) e us -> yields lm (sw s') e' vs -> Forall not_double us -> Forall not_double vs ->
  out (snd (print_text ds lm e s)) = out s ++ t -> out (snd (print_text ds lm e' s')) = out s' ++ t -> us = vs.
Proof.
  intros ds lm s s' e e' us vs t C O O' Fl Fl' Y Y' U V E E'.
  destruct (c94_vector ds lm s e us C Fl Y) as [t1 [ts [P [T S]]]]. destruct (c94_vector ds lm s' e' vs C Fl' Y') as [t2 [ts' [P' [T' S']]]].
  rewrite P in E. rewrite P' in E'. cbn [snd out] in E, E'. apply append_cancel in E, E'. subst t1 t2.
  rewrite T in T'. injection T' as <-. rewrite (read_own _ _ O) in S. rewrite (read_own _ _ O') in S'. exact (says_same ds us vs ts U V S S').
Qed.
Print Assumptions c94_faithful.

(** When computing element k throws, the text has the k elements before it. *)
Theorem c94_interrupted : forall ds lm s e us x, clean ds -> flat (sw s) e ->
  (forall i, (i < length us)%nat -> elem lm e (Z.of_nat i) (sw s) = (Done (nth i us (VB false)), sw s)) ->
  Z.of_nat (length us) < esize (sw s) e -> fst (elem lm e (Z.of_nat (length us)) (sw s)) = Thrown x ->
  exists t ts, print_text ds lm e s = (Thrown x, mkScr (sw s) true (out s ++ t)) /\ cut blank t = Some ts /\
    Forall2 (says ds true) (map (read e) us) ts.
Proof.
  intros ds lm s e us x C Fl El Sz X. unfold print_text. rewrite getS. cbv zeta. rewrite (flat_im _ _ Fl).
  destruct s as [w a o]. cbn [sw alpha out] in *.
  assert (X' : elem lm e (Z.of_nat (length us)) w = (Thrown x, w)).
  { pose proof (elem_pure lm e (Z.of_nat (length us)) w) as P. destruct (elem lm e _ w) as [q w1]. cbn in *. congruence. }
  exists (pieces blank (map (text ds true) (map (read e) us))), (map (text ds true) (map (read e) us)).
  change set_alpha with (flagged true). change " " with (String blank "").
  unfold bind at 1. rewrite (put_stop ds true blank (vat lm e) w (map (read e) us) _ 0 a o x).
  - rewrite orb_true_r. split; [reflexivity|]. split; [|apply says_texts].
    apply cut_pieces. rewrite Forall_map. apply Forall_forall. intros v _. apply text_clean; auto. cbn; auto.
  - intros j Hj. rewrite map_length in Hj. rewrite Z.add_0_l, (nth_indep _ (VB false) (read e (VB false))), map_nth by (now rewrite map_length).
    now apply vat_done, El.
  - rewrite map_length. lia.
  - rewrite map_length, Z.add_0_l, vat_read. unfold bind. now rewrite X'.
Qed.
Print Assumptions c94_interrupted.

Lemma rd_pure p i w : snd (rd p i w) = w.
Proof.
  unfold rd. destruct p as [a|]; [|reflexivity]. destruct (hblk (hp w) a); try reflexivity.
  repeat match goal with |- context [if ?b then _ else _] => destruct b end; try reflexivity.
  destruct (nth _ _ _); reflexivity.
Qed.
(** print(inp, av) of a variable of an AllVars object writes what print writes of
    the vector the variable stands for, if it has the elements its shape asks
    for. *)
Lemma from_same ds b sep w (f g : Z -> M world val) : forall n i s, (b = ret tt \/ b = set_alpha) -> sw s = w ->
  (forall k, i <= k < i + Z.of_nat n -> f k w = g k w /\ snd (f k w) = w) ->
  put_from ds b sep n i f s = put_from ds b sep n i g s /\ sw (snd (put_from ds b sep n i f s)) = w.
Proof.
  induction n as [|n IH]; intros i s B S H; [split; [reflexivity|exact S]|].
  cbn [put_from].
  assert (Bs : exists a, b s = (Done tt, mkScr w a (out s))) by (subst w; destruct s; destruct B as [->| ->]; eexists; reflexivity).
  destruct Bs as [a Bs]. rewrite !(bindS _ _ _ _ _ Bs). destruct (H i) as [E P]; [lia|].
  assert (F : inS (f i) (mkScr w a (out s)) = (fst (f i w), mkScr w a (out s))) by (unfold inS; cbn [sw alpha out]; destruct (f i w) as [r w1]; cbn in P; now subst w1).
  assert (G : inS (g i) (mkScr w a (out s)) = (fst (f i w), mkScr w a (out s))) by (unfold inS; cbn [sw alpha out]; rewrite <- E; destruct (f i w) as [r w1]; cbn in P; now subst w1).
  destruct (fst (f i w)) as [v|x|u].
  - rewrite (bindS _ _ _ _ _ F), (bindS _ _ _ _ _ G).
    rewrite !(bindS (put_val ds v sep) _ _ tt (mkScr w a ((out s ++ text ds a v) ++ sep))) by reflexivity.
    apply IH; [exact B|reflexivity|]. intros k Hk. apply H. lia.
  - unfold bind. rewrite F, G. split; reflexivity.
  - unfold bind. rewrite F, G. split; reflexivity.
Qed.
Lemma lines_same w (f g : Z -> M screen unit) : forall n i s, sw s = w ->
  (forall k s', i <= k < i + Z.of_nat n -> sw s' = w -> f k s' = g k s' /\ sw (snd (f k s')) = w) ->
  put_lines n i f s = put_lines n i g s.
Proof.
  induction n as [|n IH]; intros i s S H; [reflexivity|]. cbn [put_lines].
  destruct (H i s) as [E P]; [lia|exact S|]. unfold bind at 1 3. rewrite <- E. destruct (f i s) as [[[]|x|u] s1]; cbn [snd] in P; auto.
  unfold bind, put. apply IH; [exact P|]. intros k s' Hk. apply H. lia.
Qed.
Lemma at_rd_pure o i w : snd (at_rd o i w) = w.
Proof.
  unfold at_rd, get_at, sexp_get_at, bind, st, ass, ret, throw. destruct (kd (ob w o));
  repeat match goal with |- context [if ?b then _ else _] => destruct b end; try reflexivity; apply rd_pure.
Qed.
Lemma var_val_at x w k : 0 <= k < sz (ob w (OD (vslot x))) -> var_val x k w = at_rd (OD (vslot x)) k w.
Proof.
  intros H. unfold var_val, bind at 1, get. unfold modz, lift. destruct (Z.eqb_spec (sz (ob w (OD (vslot x)))) 0); [lia|].
  unfold bind. now rewrite Z.mod_small.
Qed.
Theorem c94_variable : forall ds lm x s, let o := ob (sw s) (OD (vslot x)) in
  (ismat (mp o) = true -> rows (mp o) * cols (mp o) <= sz o < 2 ^ 64) ->
  print_var ds x s = print_text ds lm (EVar (vslot x)) s.
Proof.
  intros ds lm x s o H. unfold print_var, print_text. rewrite !getS. cbv zeta. cbn [eim]. fold o.
  assert (V : forall k, vat lm (EVar (vslot x)) k (sw s) = at_rd (OD (vslot x)) k (sw s)).
  { intros k. unfold vat. cbn [elem]. unfold bind. destruct (at_rd (OD (vslot x)) k (sw s)) as [[v|e|u] w1]; reflexivity. }
  destruct (ismat (mp o)) eqn:Im.
  - specialize (H eq_refl). cbn [edim]. fold o. unfold lift at 1, bind at 1.
    apply (lines_same (sw s)); [reflexivity|]. intros i s' Hi S. unfold lift, bind at 1.
    apply (from_same ds (ret tt) tab (sw s)); [now left|exact S|].
    intros j Hj. assert (R : 0 <= j * rows (mp o) + i < sz o) by nia. unfold wrap64. rewrite Z.mod_small by lia.
    rewrite V, var_val_at by exact R. split; [reflexivity|apply at_rd_pure].
  - cbn [esize]. fold o. unfold bind at 1 2. destruct (from_same ds set_alpha " " (sw s) (var_val x) (vat lm (EVar (vslot x))) (Z.to_nat (sz o)) 0 s) as [E _];
      [now right|reflexivity| |now rewrite E].
    intros k Hk. rewrite V, var_val_at by (change (0 <= k < sz o); lia). split; [reflexivity|apply at_rd_pure].
Qed.
Print Assumptions c94_variable.

(** The shape of a vector as written by operator<<: whether it is a matrix, and
    numbers that read back as the numbers of rows and columns. *)
Theorem c94_shape : forall m s, exists a b,
  stream_shape m s = (Done tt, mkScr (sw s) true (out s ++ (if ismat m then "true" else "false") ++ " nrows = " ++ a ++ " ncols = " ++ b ++ String newline "")) /\
  number a = Some (rows m) /\ number b = Some (cols m).
Proof.
  intros m s. eexists _, _. split; [|split; apply number_int]. unfold stream_shape, set_alpha, put, bind. cbn [sw alpha out]. rewrite !app_assoc_s. reflexivity.
Qed.
Print Assumptions c94_shape.

(** Any sequence of calls of print and operator<< writes, one after the other,
    what each of them writes, in the state of the flag the calls before it
    left; no object changes. *)
Lemma walk_reads p w : forall n i l, walk p i n w = (Done l, w) ->
  forall j, (j < n)%nat -> rd p (i + Z.of_nat j) w = (Done (nth j l (VB false)), w).
Proof.
  induction n as [|n IH]; intros i l H j Hj; [lia|]. cbn [walk] in H. unfold bind at 1 in H.
  pose proof (rd_pure p i w) as P. destruct (rd p i w) as [[v|x|u] w1] eqn:R; cbn in P; subst w1; try discriminate H.
  unfold bind in H. destruct (walk p (i + 1) n w) as [[vs|x|u] w2] eqn:K; try discriminate H. injection H as <- ->.
  destruct j as [|j]; [now rewrite Z.add_0_r|]. replace (i + Z.of_nat (S j)) with (i + 1 + Z.of_nat j) by lia.
  cbn [nth]. apply IH; [exact K|lia].
Qed.
Lemma stream_done ds s x us : world_shape (sw s) -> vholds (sw s) x us ->
  stream_text ds (OD x) s = (Done tt, mkScr (sw s) (alpha s) (out s ++ "Vec [ " ++ pieces blank (map (text ds (alpha s)) us) ++ "]")).
Proof.
  intros W H. destruct s as [w a o]. cbn [sw alpha out] in *. pose proof (iterate_vec_holds w x us W H) as R.
  unfold iterate_vec in R. rewrite bind_st in R. pose proof (proj1 H) as S. rewrite S, Nat2Z.id in R. unfold stream_text. unfold bind at 1, put at 1. cbn [sw alpha out]. rewrite getS. cbn [sw].
  rewrite S, Nat2Z.id. change (ret tt) with (flagged false). change " " with (String blank "").
  rewrite (bindS _ _ _ _ _ (put_all ds false blank (fun i => rd (ptr (ob w (OD x))) i) w us 0 a (o ++ "Vec [ ")
     ltac:(intros j Hj; exact (walk_reads _ w _ _ _ R j Hj)))).
  unfold put. cbn [sw alpha out andb]. rewrite !orb_false_r, !app_assoc_s. reflexivity.
Qed.
Lemma item_prints ds lm p s : clean ds -> printable lm (sw s) p ->
  exists a t, print_item ds lm p s = (Done tt, mkScr (sw s) a (out s ++ t)) /\ prints ds lm (sw s) (alpha s) p a t.
Proof.
  intros C H. inversion H; subst; cbn [print_item].
  - destruct (c94_vector ds lm s e us C) as [t [ts [E [T S]]]]; auto. eexists _, t. split; [exact E|]. econstructor; eauto.
  - destruct (c94_matrix ds lm s rho e r cs C) as [t [g [E [T S]]]]; auto. exists (alpha s), t. split; [exact E|]. eapply Pr_matrix; eauto.
  - destruct v as [b|z|d]; unfold print_scalar.
    + exists true, (text ds true (VB b) ++ String blank (String newline "")). split; [|apply Pr_logical, (text_says ds true (VB b))].
      unfold bind, set_alpha, put_val, put, get. cbn [sw alpha out bind]. rewrite !app_assoc_s. reflexivity.
    + eexists _, _. split; [|eapply Pr_number; [exact I|apply (text_says ds (alpha s) (VI z))]].
      unfold bind, put_val, put, get. cbn [sw alpha out bind]. rewrite !app_assoc_s. reflexivity.
    + eexists _, _. split; [|eapply Pr_number; [exact I|apply (text_says ds (alpha s) (VD d))]].
      unfold bind, put_val, put, get. cbn [sw alpha out bind]. rewrite !app_assoc_s. reflexivity.
  - eexists _, _. split; [|apply Pr_chars]. unfold print_chars, bind, put. cbn [sw alpha out]. rewrite !app_assoc_s. reflexivity.
  - eexists _, _. split; [|apply Pr_newline]. reflexivity.
  - eexists _, _. split; [now apply (stream_done ds s x us)|]. econstructor; [eassumption|apply says_texts|].
    apply cut_pieces. rewrite Forall_map. apply Forall_forall. intros v _. apply text_clean; auto. cbn; auto.
Qed.
Theorem c94_session : forall ds lm ps s, clean ds -> Forall (printable lm (sw s)) ps ->
  exists a t, print_items ds lm ps s = (Done tt, mkScr (sw s) a (out s ++ t)) /\ prints_all ds lm (sw s) (alpha s) ps a t.
Proof.
  intros ds lm ps. induction ps as [|p ps IH]; intros s C H.
  - exists (alpha s), "". split; [|constructor]. cbn [print_items]. unfold ret. rewrite app_nil_s. now destruct s.
  - inversion H; subst. destruct (item_prints ds lm p s C) as [a1 [t1 [E1 P1]]]; auto.
    destruct (IH (mkScr (sw s) a1 (out s ++ t1)) C) as [a2 [t2 [E2 P2]]]; auto.
    exists a2, (t1 ++ t2). split; [|econstructor; eauto].
    cbn [print_items]. rewrite (bindS _ _ _ _ _ E1), E2. cbn [sw out]. rewrite app_assoc_s. reflexivity.
Qed.
Print Assumptions c94_session.

(** The text does not depend on what was written before, unless it is that of a
    logical matrix or of operator<<. *)
Lemma text_flag ds a a' v : not_logical v -> text ds a v = text ds a' v.
Proof. now destruct v. Qed.
Theorem c94_history : forall ds lm w a a' o o' e, clean ds ->
  (exists us, flat w e /\ yields lm w e us) \/
  (exists rho r cs, env_of w rho e /\ shaped w rho (Z.of_nat r) (Z.of_nat (length cs)) e /\ yields lm w e (List.concat cs) /\
     Forall (fun col => length col = r) cs /\ Z.of_nat (length (List.concat cs)) < 2 ^ 64 /\
     Forall (Forall (fun v => not_logical (read e v))) cs) ->
  exists t, out (snd (print_text ds lm e (mkScr w a o))) = o ++ t /\ out (snd (print_text ds lm e (mkScr w a' o'))) = o' ++ t.
Proof.
  intros ds lm w a a' o o' e C [[us [Fl Y]] | [rho [r [cs [EN [Sh [Y [F [B N]]]]]]]]].
  - eexists. rewrite !(text_flat ds lm e us) by auto using flat_im. cbn [snd out sw alpha]. split; reflexivity.
  - eexists. rewrite !(text_columns ds lm _ rho e r cs) by auto. cbn [snd out sw alpha]. split; [reflexivity|].
    do 2 f_equal. rewrite !map_map. apply map_ext_in. intros i Hi. apply in_seq in Hi. rewrite !map_map. apply map_ext_in. intros col Hc.
    apply text_flag. rewrite Forall_forall in N, F. specialize (N col Hc). specialize (F col Hc). rewrite Forall_forall in N.
    apply N, nth_In. lia.
Qed.
Print Assumptions c94_history.

(** A logical matrix is written differently before and after any logical or
    non-empty vector has been: true and false only then. *)
Theorem c94_logical_refuted : forall ds lm w o o' rho e r bss, clean ds -> own_type e = true -> env_of w rho e ->
  shaped w rho (Z.of_nat (S r)) (Z.of_nat (S (length bss))) e -> forall bs, yields lm w e (map VB (List.concat (bs :: bss))) ->
  Forall (fun col => length col = S r) (bs :: bss) -> Z.of_nat (length (List.concat (bs :: bss))) < 2 ^ 64 ->
  forall t t', out (snd (print_text ds lm e (mkScr w true o))) = o ++ t -> out (snd (print_text ds lm e (mkScr w false o'))) = o' ++ t' -> t <> t'.
Proof.
  intros ds lm w o o' rho e r bss C O EN Sh bs Y F B t t' E E' Q. subst t'.
  rewrite concat_map in Y.
  assert (F' : Forall (fun col : list val => length col = S r) (map (map VB) (bs :: bss))).
  { rewrite Forall_map. eapply Forall_impl; [|exact F]. intros l H. now rewrite map_length. }
  assert (Sh' : shaped w rho (Z.of_nat (S r)) (Z.of_nat (length (map (map VB) (bs :: bss)))) e) by (now rewrite map_length).
  assert (B' : Z.of_nat (length (List.concat (map (map VB) (bs :: bss)))) < 2 ^ 64) by (now rewrite <- concat_map, map_length).
  destruct (c94_matrix ds lm (mkScr w true o) rho e (S r) _ C EN Sh' Y F' B') as [t1 [g [P [T Hs]]]].
  destruct (c94_matrix ds lm (mkScr w false o') rho e (S r) _ C EN Sh' Y F' B') as [t2 [g' [P' [T' Hs']]]].
  rewrite P in E. rewrite P' in E'. cbn [snd out] in E, E'. apply append_cancel in E, E'. subst t1 t2.
  rewrite T in T'. injection T' as <-. cbn [seq map alpha] in Hs, Hs'.
  inversion Hs as [|? ? ? ? S1 _ Q1 Q2]; subst. inversion Hs' as [|? ? ? ? S1' _ Q1' Q2']; subst.
  inversion S1; subst. inversion S1'; subst.
  inversion F as [|? ? L]; subst. destruct bs as [|b bs]; [discriminate L|]. cbn [map nth] in *. unfold read in *. rewrite O in *. cbn [says] in *.
  cbn in *. repeat match goal with H : _ \/ _ |- _ => destruct H | H : False |- _ => destruct H | H : (_, _) = (_, _) |- _ => injection H; clear H; intros; subst end; congruence.
Qed.
Print Assumptions c94_logical_refuted.

(** A logical matrix and the integer matrix of its zeros and ones are written
    alike while the flag is off. *)
Theorem c94_zero_one_refuted : forall ds lm w o o' rho e rho' e' r bss, own_type e = true -> own_type e' = true ->
  env_of w rho e -> env_of w rho' e' -> shaped w rho (Z.of_nat r) (Z.of_nat (length bss)) e -> shaped w rho' (Z.of_nat r) (Z.of_nat (length bss)) e' ->
  yields lm w e (List.concat (map (map VB) bss)) ->
  yields lm w e' (List.concat (map (map (fun b : bool => VI (if b then 1 else 0))) bss)) ->
  Forall (fun col => length col = r) bss -> Z.of_nat (r * length bss) < 2 ^ 64 ->
  exists t, out (snd (print_text ds lm e (mkScr w false o))) = o ++ t /\ out (snd (print_text ds lm e' (mkScr w false o'))) = o' ++ t.
Proof.
  intros ds lm w o o' rho e rho' e' r bss O O' EN EN' Sh Sh' Y Y' F B.
  assert (L : forall f : bool -> val, Forall (fun col => length col = r) (map (map f) bss)).
  { intros f. rewrite Forall_map. eapply Forall_impl; [|exact F]. intros l H. now rewrite map_length. }
  assert (Bd : forall f : bool -> val, Z.of_nat (length (List.concat (map (map f) bss))) < 2 ^ 64).
  { intros f. rewrite (concat_len r _ (L f)), map_length. exact B. }
  eexists. rewrite (text_columns ds lm _ rho e r (map (map VB) bss)); auto; [|now rewrite map_length].
  rewrite (text_columns ds lm _ rho' e' r (map (map (fun b : bool => VI (if b then 1 else 0))) bss)); auto; [|now rewrite map_length].
  cbn [snd out sw alpha]. split; [reflexivity|]. do 2 f_equal. rewrite !map_map. apply map_ext_in. intros i Hi. apply in_seq in Hi.
  rewrite !map_map. apply map_ext_in. intros col Hc. rewrite Forall_forall in F. specialize (F col Hc). unfold read. rewrite O, O'.
  rewrite (map_nth VB).
  rewrite (nth_indep (map _ col) (VB false) (VI 0)) by (rewrite map_length; lia).
  pose proof (map_nth (fun b : bool => VI (if b then 1 else 0)) col false i) as Q. cbv beta iota in Q. rewrite Q.
  destruct (nth i col false); reflexivity.
Qed.
Print Assumptions c94_zero_one_refuted.

(* -------------------------------------------------------------- examples *)

Definition ex_ds (d : flt) : string := "x".
Lemma ex_clean : clean ex_ds.
Proof. intros d c H. cbn in *. split; [|exact I]. intros <-. intuition discriminate. Qed.
Definition ex_iv : expr := ETmp TInt [VI (-12); VI 0; VI 305] (mkMP false 0 0).
Definition ex_im : expr := ETmp TInt [VI 1; VI 0; VI 0; VI 1] (mkMP true 2 2).
Definition ex_bm : expr := ETmp TBool [VB true; VB false; VB false; VB true] (mkMP true 2 2).
Definition ex_s (a : bool) : screen := mkScr ex_w a "".
Definition ln : string := String newline "".
Definition tb : string := String tabulator "".
Example c94_vector_ex : out (snd (print_text ex_ds ex_lm ex_iv (ex_s false))) = "-12 0 305 " ++ ln /\
  numbers blank ("-12 0 305 " ++ ln) = Some [[-12; 0; 305]].
Proof. vm_compute. split; reflexivity. Qed.
Example c94_integers_ex : exists t, out (snd (print_text ex_ds ex_lm ex_iv (ex_s false))) = t /\ numbers blank t = Some [[-12; 0; 305]].
Proof.
  destruct (c94_integers ex_ds ex_lm (ex_s false) ex_iv [-12; 0; 305] ex_clean eq_refl) as [t [E N]];
    [now apply Fl_tmp|apply yields_tmp|]. exists t. split; [exact E|exact N].
Qed.
Example c94_matrix_ex : exists t, out (snd (print_text ex_ds ex_lm ex_im (ex_s false))) = t /\ numbers tabulator t = Some [[1; 0]; [0; 1]].
Proof.
  destruct (c94_integer_matrix ex_ds ex_lm (ex_s false) ex_rho ex_im 2 [[1; 0]; [0; 1]] ex_clean eq_refl) as [t [E N]].
  - intros x [].
  - apply Sh_tmp. reflexivity.
  - apply yields_tmp.
  - repeat constructor.
  - cbn. lia.
  - exists t. split; [exact E|exact N].
Qed.
Example c94_faithful_ex : forall l, yields ex_lm ex_w (ETmp TBool l (mkMP false 0 0)) l -> Forall not_double l ->
  out (snd (print_text ex_ds ex_lm (ETmp TBool l (mkMP false 0 0)) (ex_s true))) = "true -12 " ++ ln -> l = [VB true; VI (-12)].
Proof.
  intros l Y N E. apply (c94_faithful ex_ds ex_lm (ex_s true) (ex_s false) (ETmp TBool l (mkMP false 0 0)) (ETmp TInt [VB true; VI (-12)] (mkMP false 0 0)) l
    [VB true; VI (-12)] ("true -12 " ++ ln) ex_clean eq_refl eq_refl); auto.
  - now apply Fl_tmp.
  - now apply Fl_tmp.
  - apply yields_tmp.
  - repeat constructor.
Qed.
Definition ex_stale : expr := ESub (EVar 0) [1; 7; 0] (mkMP false 0 0).
Example c94_interrupted_ex : exists x t ts, print_text ex_ds ex_lm ex_stale (ex_s false) = (Thrown x, mkScr ex_w true t) /\
  cut blank t = Some ts /\ Forall2 (says ex_ds true) [d2] ts.
Proof.
  destruct (fst (elem ex_lm ex_stale 1 ex_w)) as [v|x|u] eqn:E; vm_compute in E; [discriminate E| |discriminate E].
  exists x. apply (c94_interrupted ex_ds ex_lm (ex_s false) ex_stale [d2] x ex_clean).
  - apply Fl_sub. reflexivity.
  - intros [|i] Hi; [vm_compute; reflexivity|cbn in Hi; lia].
  - vm_compute. reflexivity.
  - vm_compute. now injection E as <-.
Qed.
Example c94_session_ex : out (snd (print_items ex_ds ex_lm [PStr "m:"; PVec ex_bm; PSca (VB true); PVec ex_bm; PSca (VI 7); PNl; PStream 0] (ex_s false))) =
  ("m:" ++ ln ++ ln) ++ ("1" ++ tb ++ "0" ++ tb ++ ln ++ "0" ++ tb ++ "1" ++ tb ++ ln) ++ ("true " ++ ln) ++
  ("true" ++ tb ++ "false" ++ tb ++ ln ++ "false" ++ tb ++ "true" ++ tb ++ ln) ++ ("7" ++ ln ++ ln) ++ ln ++ "Vec [ x x x ]".
Proof. vm_compute. reflexivity. Qed.
Example c94_session_hyp : Forall (printable ex_lm ex_w) [PStr "m:"; PVec ex_bm; PSca (VB true); PVec ex_iv; PNl; PStream 0].
Proof.
  repeat constructor.
  - apply (Pb_matrix ex_lm ex_w ex_rho ex_bm 2 [[VB true; VB false]; [VB false; VB true]]);
      [intros x []|apply Sh_tmp; reflexivity|apply yields_tmp|repeat constructor|cbn; lia].
  - eapply Pb_flat; [now apply Fl_tmp|apply yields_tmp].
  - eapply Pb_stream; [apply ex_shape|apply ex_holds0].
Qed.
Example c94_logical_ex : forall t t', out (snd (print_text ex_ds ex_lm ex_bm (ex_s true))) = t -> out (snd (print_text ex_ds ex_lm ex_bm (ex_s false))) = t' -> t <> t'.
Proof.
  apply (c94_logical_refuted ex_ds ex_lm ex_w "" "" ex_rho ex_bm 1 [[false; true]] ex_clean eq_refl) with (bs := [true; false]).
  - intros x [].
  - apply Sh_tmp. reflexivity.
  - apply yields_tmp.
  - repeat constructor.
  - cbn. lia.
Qed.
Example c94_zero_one_ex : exists t, out (snd (print_text ex_ds ex_lm ex_bm (ex_s false))) = t /\ out (snd (print_text ex_ds ex_lm ex_im (ex_s false))) = t.
Proof.
  apply (c94_zero_one_refuted ex_ds ex_lm ex_w "" "" ex_rho ex_bm ex_rho ex_im 2 [[true; false]; [false; true]] eq_refl eq_refl);
    try (intros x []; fail); try (apply Sh_tmp; reflexivity); try apply yields_tmp; [repeat constructor|cbn; lia].
Qed.

(** A variable with four elements and two rows; with three rows and two columns
    print(inp, av) shows elements twice where print throws, so the condition of
    c94_variable is needed. *)
Definition ex_var (nr nc : Z) : world :=
  mkWorld (mkHeap 1 (fun a => if Nat.eqb a 0 then Live OwnCpp (map (fun z => Some (VI z)) [10; 20; 30; 40]) else Unused) 1000)
    (fun o => if oid_eqb o (OD 0) then mkStore KBuffer TInt (Some 0%nat) 4 4 true (mkMP true nr nc) false else store_default KBuffer TDouble).
Example c94_variable_ex : (ismat (mp (ob (ex_var 2 2) (OD (vslot (DV KBuffer 0))))) = true /\ 2 * 2 <= sz (ob (ex_var 2 2) (OD (vslot (DV KBuffer 0)))) < 2 ^ 64) /\
  (exists t, out (snd (print_var ex_ds (DV KBuffer 0) (mkScr (ex_var 2 2) false ""))) = t /\ numbers tabulator t = Some [[10; 30]; [20; 40]]) /\
  (exists t, out (snd (print_var ex_ds (DV KBuffer 0) (mkScr (ex_var 3 2) false ""))) = t /\ numbers tabulator t = Some [[10; 40]; [20; 10]; [30; 20]]) /\
  exists m, fst (print_text ex_ds ex_lm (EVar 0) (mkScr (ex_var 3 2) false "")) = Thrown (Ass m).
Proof. split; [vm_compute; intuition discriminate|]. repeat split; eexists; try split; vm_compute; reflexivity. Qed.
Example c94_shape_ex : out (snd (stream_shape (mkMP true 20 3) (mkScr ex_w false "shape: "))) = "shape: true nrows = 20 ncols = 3" ++ ln.
Proof. vm_compute. reflexivity. Qed.
