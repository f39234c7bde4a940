(** Programs that need no memory (see SpecCost): every step keeps the blocks of
    the heap and the room of the vectors. *)
From Coq Require Import ZArith List String Bool Lia.
From Verif Require Import Base Num StoreModel VecModel SubsetModel AllocModel ProgModel LangModel OutModel ForeignModel CallModel JumpModel SpecCost StoreProofs CapProofs SpecExpr.
Import ListNotations.
Open Scope Z_scope.
Local Notation length := List.length (only parsing).

(* --------------------------------------------------------- reading only *)

Definition look {A} (m : M world A) : Prop := forall w, snd (m w) = w /\ fst (m w) <> Thrown BadAlloc.
Definition nb {A} (o : outcome A) : Prop := o <> Thrown BadAlloc.

Lemma look_bind {A B} (m : M world A) (f : A -> M world B) : look m -> (forall a, look (f a)) -> look (bind m f).
Proof.
  intros Hm Hf w. unfold bind. destruct (Hm w) as [E N]. destruct (m w) as [[a|x|u] w1]; cbn in E, N; subst w1.
  - apply Hf.
  - split; [reflexivity|]. cbn. intros H. apply N. now injection H as ->.
  - split; [reflexivity|discriminate].
Qed.
Lemma look_ret {A} (a : A) : look (ret a). Proof. intros w. split; [reflexivity|discriminate]. Qed.
Lemma look_st o : look (st o). Proof. intros w. split; [reflexivity|discriminate]. Qed.
Lemma look_get : look (@get world). Proof. intros w. split; [reflexivity|discriminate]. Qed.
Lemma look_throw {A} s : look (A := A) (throw (Ass s)). Proof. intros w. split; [reflexivity|discriminate]. Qed.
Lemma look_ass b s : look (ass b s). Proof. destruct b; [apply look_ret|apply look_throw]. Qed.
Lemma look_lift {A} (o : outcome A) : nb o -> look (lift o). Proof. intros N w. now split. Qed.
Lemma look_rd p i : look (rd p i).
Proof.
  intros w. unfold rd. destruct p as [a|]; [|split; [reflexivity|discriminate]].
  destruct (hblk (hp w) a); try (split; [reflexivity|discriminate]).
  destruct (_ && _); [|split; [reflexivity|discriminate]].
  destruct (nth _ _ _); split; try reflexivity; discriminate.
Qed.
Lemma nb_modz i n : nb (modz i n). Proof. unfold modz. destruct (n =? 0); discriminate. Qed.
Lemma nb_ind_at l i : nb (ind_at l i). Proof. unfold ind_at. destruct (_ <? _); discriminate. Qed.
Lemma nb_int_res z : nb (int_res z). Proof. unfold int_res. destruct (in_int z); discriminate. Qed.
Lemma nb_obind {A B} (o : outcome A) (f : A -> outcome B) : nb o -> (forall a, nb (f a)) -> nb (obind o f).
Proof. intros H Hf. destruct o as [a|x|u]; cbn [obind]; [apply Hf|intros E; apply H; now injection E as ->|discriminate]. Qed.
Lemma nb_f2int f : nb (f2int f). Proof. unfold f2int. repeat match goal with |- nb (match ?b with _ => _ end) => destruct b end; discriminate. Qed.
Lemma nb_f2size f : nb (f2size f). Proof. unfold f2size. repeat match goal with |- nb (match ?b with _ => _ end) => destruct b end; discriminate. Qed.
Lemma nb_cast t v : nb (cast t v).
Proof. destruct t, v; cbn [cast]; try discriminate; try (apply nb_obind; [apply nb_f2int|intros; discriminate]). Qed.
Ltac nbs := repeat first
  [ discriminate | assumption | simple apply nb_modz | simple apply nb_ind_at | simple apply nb_int_res | simple apply nb_f2int | simple apply nb_f2size | simple apply nb_cast
  | simple apply nb_obind; [|intro]
  | match goal with |- nb (match ?b with _ => _ end) => destruct b end ].
Lemma nb_bin lm op a b : nb (bin_f lm op a b).
Proof. destruct op; cbn [bin_f]; unfold trait_arith, trait_div, trait_pow, trait_eq, trait_ne, compare_vals, arith; nbs. Qed.
Lemma nb_un lm op a : nb (un_f lm op a).
Proof. destruct op; cbn [un_f]; nbs. Qed.
Lemma nb_pos_less1 i : nb (pos_less1 i). Proof. unfold pos_less1. nbs. Qed.
Lemma nb_at_pos w x i : nb (at_pos w x i). Proof. unfold at_pos. apply nb_obind; [apply nb_pos_less1|]. intros k. nbs. Qed.
Lemma nb_at_mat_pos w x i j : nb (at_mat_pos w x i j).
Proof. unfold at_mat_pos. do 2 (match goal with |- nb (if ?b then _ else _) => destruct b; [discriminate|] end). apply nb_obind; [apply nb_pos_less1|]. intros k. apply nb_obind; [apply nb_pos_less1|]. intros l. cbv zeta. nbs. Qed.
Lemma nb_edim p w e : nb (edim p w e).
Proof. induction e; cbn [edim]; nbs. Qed.

Ltac looks := repeat first
  [ assumption | simple apply look_ret | simple apply look_st | simple apply look_get | simple apply look_throw | simple apply look_ass | simple apply look_rd
  | simple apply look_lift; first [apply nb_modz|apply nb_ind_at|apply nb_bin|apply nb_un|apply nb_pos_less1|apply nb_at_pos|apply nb_at_mat_pos|apply nb_edim|apply nb_cast]
  | simple apply look_bind; [|intro]
  | match goal with |- look (match ?b with _ => _ end) => destruct b end ].
Lemma look_at_rd o i : look (at_rd o i).
Proof. unfold at_rd, get_at, sexp_get_at. looks. Qed.
Lemma look_elem lm e : forall i, look (elem lm e i).
Proof.
  induction e as [x|t l m|v|e IH ind m|op l IHl r IHr|op e IH]; intros i; cbn [elem]; looks; auto using look_at_rd.
Qed.
Lemma look_vat lm e i : look (vat lm e i). Proof. unfold vat. apply look_bind; [apply look_elem|]. intro. apply look_ret. Qed.
Lemma look_at_vec x i : look (at_vec x i). Proof. unfold at_vec. looks. Qed.
Lemma look_at_mat x i j : look (at_mat x i j). Proof. unfold at_mat. looks. Qed.
Lemma look_at_expr lm e i : look (at_expr lm e i).
Proof. unfold at_expr. apply look_bind; [|intro; apply look_vat]. apply look_lift. destruct i; nbs. Qed.
Lemma look_at_mat_expr lm e i j : look (at_mat_expr lm e i j).
Proof. unfold at_mat_expr. cbv zeta. looks. apply look_vat. Qed.
Lemma nb_fst {A} (m : M world A) w : look m -> nb (fst (m w)). Proof. intros L. apply L. Qed.

(** Building expressions without subset() neither runs out of memory nor makes
    them longer than n. *)
Lemma lbuild_plain lm V R n w : steady V R n w -> forall e, plain_e V R e ->
  nb (lbuild lm w e) /\ forall e', lbuild lm w e = Done e' -> esize w e' <= n.
Proof.
  intros Sd e. pose proof (st_some _ _ _ _ Sd) as N1.
  assert (Sc : forall (o : outcome val) , nb o -> nb (v <-o o ;; Done (ESca v)) /\ forall e', (v <-o o ;; Done (ESca v)) = Done e' -> esize w e' <= n).
  { intros o No. split; [apply nb_obind; [exact No|intros; discriminate]|]. intros e' E. destruct o; try discriminate. injection E as <-. cbn. lia. }
  induction e as [x|v|op l IHl r IHr|op e IH|e IH i|e IH i j|x i|x i j|e IH i|e IH i j|e IH]; intros P; cbn [lbuild plain_e] in *; try contradiction.
  - split; [discriminate|]. intros e' E. injection E as <-. cbn. destruct P as [P|P].
    + destruct (st_use _ _ _ _ Sd x P) as (_ & _ & B). lia.
    + now apply (st_read _ _ _ _ Sd).
  - split; [discriminate|]. intros e' E. injection E as <-. cbn. lia.
  - destruct P as [Pl Pr]. destruct (IHl Pl) as [Nl Bl]. destruct (IHr Pr) as [Nr Br]. split.
    + apply nb_obind; [exact Nl|]. intros l'. apply nb_obind; [exact Nr|]. discriminate.
    + intros e' E. destruct (lbuild lm w l) as [l'|?|?]; try discriminate. destruct (lbuild lm w r) as [r'|?|?]; try discriminate.
      cbn [obind] in E. injection E as <-. specialize (Bl l' eq_refl). specialize (Br r' eq_refl). cbn [esize].
      repeat match goal with |- (if ?b then _ else _) <= _ => destruct b end; lia.
  - destruct (IH P) as [Ne Be]. split; [apply nb_obind; [exact Ne|discriminate]|].
    intros e' E. destruct (lbuild lm w e) as [a|?|?]; try discriminate. injection E as <-. cbn [esize]. now apply Be.
  - apply Sc, nb_fst, look_at_vec.
  - apply Sc, nb_fst, look_at_mat.
  - destruct (IH P) as [Ne _]. destruct (lbuild lm w e) as [a|?|?]; cbn [obind]; [|split; [assumption|discriminate]|split; discriminate].
    apply Sc, nb_fst, look_at_expr.
  - destruct (IH P) as [Ne _]. destruct (lbuild lm w e) as [a|?|?]; cbn [obind]; [|split; [assumption|discriminate]|split; discriminate].
    apply Sc, nb_fst, look_at_mat_expr.
  - destruct (IH P) as [Ne _]. split; [apply nb_obind; [exact Ne|discriminate]|].
    intros e' E. destruct (lbuild lm w e) as [a|?|?]; try discriminate. injection E as <-. cbn. lia.
Qed.

(* ------------------------------------------------------ nothing is asked for *)

Section Calm.
Variables (V R : nat -> Prop) (n : Z) (h0 : heap).
Record good (w : world) : Prop := { gd_steady : steady V R n w; gd_blocks : same_blocks h0 (hp w) }.
Definition calm {A} (m : M world A) : Prop := forall w, good w -> good (snd (m w)) /\ fst (m w) <> Thrown BadAlloc.

Lemma calm_look {A} (m : M world A) : look m -> calm m.
Proof. intros L w G. destruct (L w) as [E N]. rewrite E. now split. Qed.
Lemma calm_bind {A B} (m : M world A) (f : A -> M world B) : calm m -> (forall a, calm (f a)) -> calm (bind m f).
Proof.
  intros Hm Hf w G. unfold bind. destruct (Hm w G) as [G1 N]. destruct (m w) as [[a|x|u] w1]; cbn in G1, N.
  - now apply Hf.
  - split; [exact G1|]. cbn. intros H. apply N. now injection H as ->.
  - split; [exact G1|discriminate].
Qed.
Lemma calm_get {A} (f : world -> M world A) : (forall w, good w -> good (snd (f w w)) /\ fst (f w w) <> Thrown BadAlloc) -> calm (bind get f).
Proof. intros H w G. unfold bind, get. now apply H. Qed.
Lemma calm_wrc p i c : calm (wrc p i c).
Proof.
  intros w [Sd [Bn Bb]]. unfold wrc. destruct p as [a|]; [|split; [now split; [|split]|discriminate]].
  destruct (hblk (hp w) a) as [|o cs|] eqn:Ea; try (split; [now split; [|split]|discriminate]).
  destruct (_ && _); [|split; [now split; [|split]|discriminate]].
  split; [|discriminate]. cbn [snd]. split.
  - destruct Sd. now constructor.
  - split; [exact Bn|]. intros b. cbn. destruct (Nat.eqb b a) eqn:E; [|apply Bb].
    apply Nat.eqb_eq in E. subst b. specialize (Bb a). rewrite Ea in Bb. destruct (hblk h0 a); try contradiction.
    rewrite list_set_length. exact Bb.
Qed.
Lemma calm_wr p i c : calm (wr p i c). Proof. apply calm_wrc. Qed.
Lemma calm_forN k : forall i body, (forall j, calm (body j)) -> calm (forN k i body).
Proof. induction k as [|k IH]; intros i body H; cbn [forN]; [apply calm_look, look_ret|]. apply calm_bind; auto. Qed.
Lemma calm_for k body : (forall j, calm (body j)) -> calm (for_ k body). Proof. apply calm_forN. Qed.

(** A storage object of V is replaced by one with room. *)
Lemma good_set w o x s : (o = OD x \/ o = OT x) -> V x -> good w -> room n s -> kd s = kd (ob w o) -> good (set_ob w o s).
Proof.
  intros Ho Vx [[N1 Sk Su Sr Rd] Bl] Rm Kd. split; [|exact Bl]. constructor; [exact N1| | | |]; cbn.
  - intros y Vy. destruct o as [z|z]; cbn; [|now apply Sk]. destruct (Nat.eqb y z) eqn:E; [|now apply Sk].
    apply Nat.eqb_eq in E. subst z. rewrite Kd. now apply Sk.
  - intros y Vy. destruct o as [z|z]; cbn; [|now apply Su]. destruct (Nat.eqb y z); [exact Rm|now apply Su].
  - intros y Vy. destruct o as [z|z]; cbn; [now apply Sr|]. destruct (Nat.eqb y z); [exact Rm|now apply Sr].
  - intros y Ry. destruct o as [z|z]; cbn; [|now apply Rd]. destruct (Nat.eqb y z); [apply Rm|now apply Rd].
Qed.

Lemma good_room w o x : (o = OD x \/ o = OT x) -> V x -> good w -> room n (ob w o).
Proof. intros [->| ->] Vx [Sd _]; [now apply (st_use _ _ _ _ Sd)|now apply (st_reserve _ _ _ _ Sd)]. Qed.

Lemma calm_resize o x k : (o = OD x \/ o = OT x) -> V x -> k <= n -> calm (resize o k).
Proof.
  intros Ho Vx Hk w G. unfold resize, ass. destruct (Z.leb_spec 1 k); [|cbn; split; [exact G|discriminate]].
  unfold bind, ret, st. pose proof (good_room w o x Ho Vx G) as (Al & Cp & Sz). rewrite Al. cbn [negb].
  destruct (Z.ltb_spec (cap (ob w o)) k); [lia|]. unfold upd. cbn [fst snd]. split; [|discriminate].
  apply (good_set w o x); auto. unfold room. cbn. repeat split; auto; lia.
Qed.
Lemma to_int_small z : 0 <= z < 2 ^ 31 -> wrap64 (to_int z) = z.
Proof.
  intros H. unfold to_int, wrap64. change (2 ^ 31) with 2147483648 in *. change (2 ^ 32) with 4294967296. change (2 ^ 64) with 18446744073709551616.
  rewrite (Z.mod_small z) by lia. destruct (Z.ltb_spec z 2147483648); [|lia]. apply Z.mod_small. lia.
Qed.
Lemma calm_moveit x : V x -> calm (moveit (OD x) (OT x)).
Proof.
  intros Vx w G. unfold moveit, bind, st, upd. cbn [fst snd]. split; [|discriminate].
  pose proof (good_room w (OD x) x (or_introl eq_refl) Vx G) as (Ad & Cd & Zd).
  pose proof (good_room w (OT x) x (or_intror eq_refl) Vx G) as (At & Ct & Zt).
  assert (N1 := st_some _ _ _ _ (gd_steady w G)).
  apply (good_set _ (OD x) x); auto.
  - apply (good_set w (OT x) x); auto. unfold room. cbn. auto.
  - unfold room. cbn. rewrite !to_int_small by lia. auto.
Qed.
Lemma calm_shape o x e : o = OD x \/ o = OT x -> V x -> calm (take_shape o e).
Proof.
  intros Ho Vx. unfold take_shape. apply calm_bind; [apply calm_look, look_get|]. intros w1.
  destruct (eim w1 e); [|apply calm_look, look_ret].
  apply calm_bind; [apply calm_look, look_lift, nb_edim|]. intros r. apply calm_bind; [apply calm_look, look_lift, nb_edim|]. intros c.
  intros w G. unfold upd. cbn [fst snd]. split; [|discriminate]. apply (good_set w o x); auto.
  exact (good_room w o x Ho Vx G).
Qed.
Lemma calm_set_at o i v : calm (set_at o i v).
Proof. unfold set_at. repeat (apply calm_bind; [apply calm_look; looks|intro]). apply calm_wr. Qed.
Lemma calm_at_wr o i v : calm (at_wr o i v).
Proof.
  unfold at_wr. apply calm_bind; [apply calm_look; looks|]. intros s. destruct (kd s); try apply calm_set_at.
  unfold sexp_set_at. repeat (apply calm_bind; [apply calm_look; looks|intro]). apply calm_wr.
Qed.
Lemma calm_fill_temp lm o t e k : calm (fill_temp lm o t e k).
Proof.
  unfold fill_temp. apply calm_for. intros j. apply calm_bind; [apply calm_look, look_elem|]. intros v.
  apply calm_bind; [apply calm_look, look_lift, nb_cast|]. intros v'. apply calm_set_at.
Qed.
Lemma calm_fill o v : calm (fill o v).
Proof.
  unfold fill. apply calm_bind; [apply calm_look; looks|]. intros s. apply calm_bind; [apply calm_look, look_lift, nb_cast|]. intros v'.
  apply calm_for. intros j. apply calm_wr.
Qed.

(** An assignment of at most n elements. *)
Lemma calm_assign lm x e w : V x -> esize w e <= n -> good w -> good (snd (assign lm x e w)) /\ fst (assign lm x e w) <> Thrown BadAlloc.
Proof.
  intros Vx He G.
  assert (E : assign lm x e w = (resize (OT x) (esize w e) ;; fill_temp lm (OT x) (sty (ob w (OD x))) e (esize w e) ;;
    moveit (OD x) (OT x) ;; take_shape (OD x) e) w).
  { unfold assign. unfold bind at 1, st. now rewrite (st_kind _ _ _ _ (gd_steady w G) x Vx). }
  rewrite E. revert w G He E. intros w G He _. revert G.
  apply calm_bind; [apply (calm_resize (OT x) x); auto|intros _].
  apply calm_bind; [apply calm_fill_temp|intros _]. apply calm_bind; [now apply calm_moveit|intros _]. apply (calm_shape (OD x) x); auto.
Qed.
Lemma calm_andthen a b : calm a -> calm b -> calm (andthen a b).
Proof. intros Ha Hb. unfold andthen. apply calm_bind; [exact Ha|]. intros []; [exact Hb|apply calm_look, look_ret]. Qed.
Lemma calm_rounds k c b : calm c -> calm b -> calm (rounds_of k c b).
Proof.
  intros Hc Hb. induction k as [|k IH]; cbn [rounds_of]; [apply calm_look, look_ret|].
  apply calm_bind; [exact Hc|]. intros []; [now apply calm_andthen|apply calm_look, look_ret].
Qed.
Lemma calm_condition lm c : plain_e V R c -> calm (lcondition lm c).
Proof.
  intros P. unfold lcondition. apply calm_get. intros w G.
  destruct (lbuild_plain lm V R n w (gd_steady w G) c P) as [Nb _].
  apply (calm_bind (lift (lbuild lm w c)) (to_scalar lm)); [now apply calm_look, look_lift| |exact G].
  intros e. apply calm_look, look_vat.
Qed.
Lemma calm_assign_scalar x v : V x -> calm (assign_scalar x v).
Proof.
  intros Vx w G.
  assert (E : assign_scalar x v w = (any_resize (OD x) 1 ;; v' <- lift (cast (sty (ob w (OD x))) v) ;; at_wr (OD x) 0 v') w).
  { unfold assign_scalar. unfold bind at 1, st. now rewrite (st_kind _ _ _ _ (gd_steady w G) x Vx). }
  rewrite E. clear E. generalize (sty (ob w (OD x))). intros t. revert w G.
  change (calm (any_resize (OD x) 1 ;; v' <- lift (cast t v) ;; at_wr (OD x) 0 v')).
  apply calm_bind; [|intros _; apply calm_bind; [apply calm_look, look_lift, nb_cast|intros; apply calm_at_wr]].
  intros w G. unfold any_resize, bind, st. rewrite (st_kind _ _ _ _ (gd_steady w G) x Vx).
  apply (calm_resize (OD x) x); auto. apply (st_some _ _ _ _ (gd_steady w G)).
Qed.

Lemma calm_run N lm : forall p, in_place V R n p -> calm (lrun N lm p).
Proof.
  induction p as [|x e|x v|s x i same e|x i v|s x i j same e|x i j v|x k v|x i v|x i j v|x v|x k|a IHa b IHb|c a IHa b IHb|c a IHa|e body IH
    |col m body IH|x s t m body IH|x t e body IH|x t k body IH|a IHa b IHb]; intros P; cbn [in_place] in P; try contradiction; cbn [lrun].
  - apply calm_look, look_ret.
  - destruct P as [Vx P]. apply calm_get. intros w G. destruct (lbuild_plain lm V R n w (gd_steady w G) e P) as [Nb Le].
    unfold bind, lift. destruct (lbuild lm w e) as [e'|ex|u]; cbn [fst snd].
    + destruct (calm_assign lm x e' w Vx (Le e' eq_refl) G) as [G1 N1]. destruct (assign lm x e' w) as [[[]|ex|u] w1]; cbn [fst snd] in *.
      * split; [exact G1|discriminate].
      * split; [exact G1|]. intros H. apply N1. congruence.
      * split; [exact G1|discriminate].
    + split; [exact G|]. intros H. apply Nb. congruence.
    + split; [exact G|discriminate].
  - apply calm_bind; [now apply calm_assign_scalar|]. intro. apply calm_look, look_ret.
  - apply calm_bind; [apply calm_look, look_get|]. intros w1. apply calm_bind; [apply calm_look, look_lift, nb_cast|]. intros v'.
    apply calm_bind; [apply calm_at_wr|]. intro. apply calm_look, look_ret.
  - apply calm_bind; [apply calm_look, look_get|]. intros w1. apply calm_bind; [apply calm_look, look_lift, nb_cast|]. intros v'.
    apply calm_bind; [|intro; apply calm_look, look_ret]. unfold at_vec_set.
    apply calm_bind; [apply calm_look, look_get|]. intros w2. apply calm_bind; [apply calm_look, look_lift, nb_at_pos|]. intro. apply calm_wr.
  - apply calm_bind; [apply calm_look, look_get|]. intros w1. apply calm_bind; [apply calm_look, look_lift, nb_cast|]. intros v'.
    apply calm_bind; [|intro; apply calm_look, look_ret]. unfold at_mat_set.
    apply calm_bind; [apply calm_look, look_get|]. intros w2. apply calm_bind; [apply calm_look, look_lift, nb_at_mat_pos|]. intro. apply calm_wr.
  - apply calm_bind; [apply calm_fill|]. intro. apply calm_look, look_ret.
  - destruct P as [Vx Hk]. apply calm_bind; [|intro; apply calm_look, look_ret].
    intros w G. unfold any_resize, bind, st. rewrite (st_kind _ _ _ _ (gd_steady w G) x Vx).
    apply (calm_resize (OD x) x); auto. pose proof (good_room w (OD x) x (or_introl eq_refl) Vx G) as (_ & Cp & _).
    unfold wrap64. change (2 ^ 64) with 18446744073709551616. change (2 ^ 31) with 2147483648 in Cp. rewrite Z.mod_small by lia. lia.
  - destruct P. apply calm_andthen; auto.
  - destruct P as (Pc & Pa & Pb). apply calm_bind; [now apply calm_condition|]. intros v. destruct (truth v); auto.
  - destruct P as [Pc Pa]. apply calm_rounds; [|auto]. apply calm_bind; [now apply calm_condition|]. intro. apply calm_look, look_ret.
  - destruct P as [Pe Pb]. apply calm_bind; [now apply calm_condition|]. intros v. now apply IH.
  - destruct P as [Pa Pb]. intros w G. destruct (IHa Pa w G) as [G1 N1].
    destruct (lrun N lm a w) as [[r|[msg|]|u] w1]; cbn [fst snd] in *; try (split; [exact G1|first [discriminate|exact N1]]). now apply IHb.
Qed.
Lemma calm_jthen a b : calm a -> calm b -> calm (jthen a b).
Proof. intros Ha Hb. unfold jthen. apply calm_bind; [exact Ha|]. intros []; auto; apply calm_look, look_ret. Qed.
Lemma calm_jrounds k c b : calm c -> calm b -> calm (jrounds k c b).
Proof.
  intros Hc Hb. induction k as [|k IH]; cbn [jrounds]; [apply calm_look, look_ret|].
  apply calm_bind; [exact Hc|]. intros []; [|apply calm_look, look_ret].
  apply calm_bind; [exact Hb|]. intros []; cbn [jround]; auto; apply calm_look, look_ret.
Qed.
Lemma calm_jrun N lm : forall b, j_in_place V R n b -> calm (jrun N lm b).
Proof.
  induction b as [p| | |t e|a IHa b IHb|c a IHa b IHb|c a IHa|e body IH|col m body IH|x s t m body IH|x t e body IH|a IHa b IHb];
    intros P; cbn [j_in_place] in P; try contradiction; cbn [jrun].
  - apply calm_bind; [now apply calm_run|]. intro. apply calm_look, look_ret.
  - apply calm_look, look_ret.
  - apply calm_look, look_ret.
  - destruct P. apply calm_jthen; auto.
  - destruct P as (Pc & Pa & Pb). apply calm_bind; [now apply calm_condition|]. intros v. destruct (truth v); auto.
  - destruct P as [Pc Pa]. apply calm_jrounds; [|auto]. apply calm_bind; [now apply calm_condition|]. intro. apply calm_look, look_ret.
  - destruct P as [Pe Pb]. apply calm_bind; [now apply calm_condition|]. intros v. now apply IH.
  - destruct P as [Pa Pb]. intros w G. destruct (IHa Pa w G) as [G1 N1].
    destruct (jrun N lm a w) as [[r|[msg|]|u] w1]; cbn [fst snd] in *; try (split; [exact G1|first [discriminate|exact N1]]). now apply IHb.
Qed.
End Calm.

(* ------------------------------------------------- one assignment, exactly *)

Definition kept {A} (m : M world A) : Prop := forall w, ob (snd (m w)) = ob w /\ hnext (hp (snd (m w))) = hnext (hp w).
Lemma kept_look {A} (m : M world A) : look m -> kept m.
Proof. intros L w. destruct (L w) as [-> _]. auto. Qed.
Lemma kept_bind {A B} (m : M world A) (f : A -> M world B) : kept m -> (forall a, kept (f a)) -> kept (bind m f).
Proof.
  intros Hm Hf w. unfold bind. destruct (Hm w) as [E1 E2]. destruct (m w) as [[a|x|u] w1]; cbn [fst snd] in *; auto.
  destruct (Hf a w1) as [E3 E4]. now rewrite E3, E4.
Qed.
Lemma kept_wr p i c : kept (wr p i c).
Proof.
  intros w. unfold wr, wrc. destruct p; auto. destruct (hblk (hp w) n); auto. destruct (_ && _); auto.
Qed.
Lemma kept_for k body : (forall j, kept (body j)) -> kept (for_ k body).
Proof.
  intros H. unfold for_. generalize 0 at 1. induction (Z.to_nat k) as [|m IH]; intros i; cbn [forN]; [apply kept_look, look_ret|]. apply kept_bind; auto.
Qed.
Lemma kept_fill_temp lm o t e k : kept (fill_temp lm o t e k).
Proof.
  unfold fill_temp. apply kept_for. intros j. apply kept_bind; [apply kept_look, look_elem|]. intros v.
  apply kept_bind; [apply kept_look, look_lift, nb_cast|]. intros v'.
  unfold set_at. repeat (apply kept_bind; [apply kept_look; looks|intro]). apply kept_wr.
Qed.
Lemma kept_fill o v : kept (fill o v).
Proof.
  unfold fill. apply kept_bind; [apply kept_look; looks|]. intros s. apply kept_bind; [apply kept_look, look_lift, nb_cast|]. intros v'.
  apply kept_for. intros j. apply kept_wr.
Qed.

Lemma cap115_small n c : 1 <= n <= max_len -> cap115 n = Done c -> c < 2 ^ 31.
Proof.
  intros N C. assert (ML : max_len = 1867000000) by reflexivity.
  destruct (cap115_int_ok n) as [c' [C' [_ B']]]; [lia|].
  rewrite cap115_same_int in C' by lia. congruence.
Qed.

(** Whether the object has to ask for memory to hold k elements. *)
Definition asks (k : Z) (s : store) : nat := if alloc s && (k <=? cap s) then 0%nat else 1%nat.

Lemma bind_done {A B} (m : M world A) (f : A -> M world B) w b w' : bind m f w = (Done b, w') ->
  exists a w1, m w = (Done a, w1) /\ f a w1 = (Done b, w').
Proof. unfold bind. destruct (m w) as [[a|x|u] w1]; try discriminate. eauto. Qed.

Lemma resize_cost o k w w1 : k <= max_len -> cap (ob w o) < 2 ^ 31 -> resize o k w = (Done tt, w1) ->
  1 <= k /\ hnext (hp w1) = (hnext (hp w) + asks k (ob w o))%nat /\
  (forall o', o' <> o -> ob w1 o' = ob w o') /\
  alloc (ob w1 o) = true /\ k <= cap (ob w1 o) < 2 ^ 31 /\ sz (ob w1 o) = k.
Proof.
  intros Hk Hc E. unfold resize in E. apply bind_done in E. destruct E as ([] & w0 & Ea & E).
  unfold ass in Ea. destruct (Z.leb_spec 1 k); [|discriminate]. injection Ea as <-.
  assert (Oth : forall v o' s, o' <> o -> ob (set_ob v o s) o' = ob v o').
  { intros v o' s Ne. cbn. destruct (oid_eqb o' o) eqn:Eo; [|reflexivity]. exfalso. apply Ne. destruct o', o; cbn in Eo; try discriminate; apply Nat.eqb_eq in Eo; congruence. }
  assert (Slf : forall v s, ob (set_ob v o s) o = s).
  { intros v s. cbn. destruct o; cbn; now rewrite Nat.eqb_refl. }
  apply bind_done in E. destruct E as (s & w2 & Es & E). unfold st in Es. injection Es as <- <-.
  unfold asks. destruct (alloc (ob w o)) eqn:Al; cbn [negb andb] in *.
  - destruct (Z.ltb_spec (cap (ob w o)) k).
    + destruct (Z.leb_spec k (cap (ob w o))); [lia|].
      apply bind_done in E. destruct E as ([] & v1 & E1 & E). unfold ass in E1. destruct (ptr (ob w o)) as [a|] eqn:Ep; [|discriminate]. injection E1 as <-.
      apply bind_done in E. destruct E as ([] & v1 & E1 & E).
      assert (D : ob v1 = ob w /\ hnext (hp v1) = hnext (hp w)).
      { unfold del in E1. destruct (hblk (hp w) a) as [|[]|]; try discriminate. injection E1 as <-. auto. }
      destruct D as [D1 D2].
      apply bind_done in E. destruct E as (c & v2 & E2 & E). unfold lift in E2. injection E2 as Ec <-.
      apply bind_done in E. destruct E as ([] & v3 & E3 & E). unfold upd in E3. injection E3 as <-.
      apply bind_done in E. destruct E as (b & v4 & E4 & E). unfold new_ in E4. destruct (c <=? _); [|discriminate]. injection E4 as <- <-.
      apply bind_done in E. destruct E as ([] & v5 & E5 & E). unfold upd in E5. injection E5 as <-.
      apply bind_done in E. destruct E as ([] & v6 & E6 & E). unfold upd in E6. injection E6 as <-.
      apply bind_done in E. destruct E as ([] & v7 & E7 & E). unfold upd in E7. injection E7 as <-.
      match type of E with fill _ _ ?v = _ => pose proof (kept_fill o (zero_of (sty (ob w o))) v) as [K1 K2]; rewrite E in K1, K2; cbn [snd] in K1, K2 end.
      rewrite K1, K2. pose proof (cap115_small k c ltac:(lia) Ec) as Cs.
      destruct (cap115_all k) as [(c' & Ec' & Bc)|Ec']; [unfold max_len in *; lia| |congruence]. assert (c' = c) by congruence. subst c'.
      split; [lia|]. split; [cbn; rewrite D2; lia|].
      split. { intros o' Ne. rewrite !Oth by exact Ne. cbn [ob set_hp]. rewrite !Oth by exact Ne. now rewrite D1. }
      destruct o; cbn; rewrite !Nat.eqb_refl; cbn; lia.
    + destruct (Z.leb_spec k (cap (ob w o))); [|lia]. unfold upd in E. injection E as <-.
      split; [lia|]. split; [cbn; lia|]. split; [intros o' Ne; now apply Oth|]. rewrite Slf. cbn. repeat split; auto; lia.
  - apply bind_done in E. destruct E as ([] & v0 & E0 & E).
    unfold init in E0. apply bind_done in E0. destruct E0 as (s0 & v1 & E1 & E0). unfold st in E1. injection E1 as <- <-. rewrite Al in E0.
    apply bind_done in E0. destruct E0 as ([] & v1 & E1 & E0). injection E1 as <-.
    apply bind_done in E0. destruct E0 as ([] & v2 & E2 & E0). unfold upd in E2. injection E2 as <-.
    apply bind_done in E0. destruct E0 as (c & v3 & E3 & E0). unfold lift in E3. injection E3 as Ec <-.
    apply bind_done in E0. destruct E0 as ([] & v4 & E4 & E0). unfold upd in E4. injection E4 as <-.
    apply bind_done in E0. destruct E0 as (b & v5 & E5 & E0). unfold new_ in E5. destruct (c <=? _); [|discriminate]. injection E5 as <- <-.
    apply bind_done in E0. destruct E0 as ([] & v6 & E6 & E0). unfold upd in E6. injection E6 as <-.
    unfold upd in E0. injection E0 as <-.
    match type of E with fill _ _ ?v = _ => pose proof (kept_fill o (zero_of (sty (ob w o))) v) as [K1 K2]; rewrite E in K1, K2; cbn [snd] in K1, K2 end.
    rewrite K1, K2. pose proof (cap115_small k c ltac:(lia) Ec) as Cs.
    destruct (cap115_all k) as [(c' & Ec' & Bc)|Ec']; [unfold max_len in *; lia| |congruence]. assert (c' = c) by congruence. subst c'.
    split; [lia|]. split; [cbn; lia|].
    split. { intros o' Ne. rewrite !Oth by exact Ne. cbn [ob set_hp]. now rewrite !Oth by exact Ne. }
    destruct o; cbn; rewrite !Nat.eqb_refl; cbn; lia.
Qed.

Lemma kept_shape_obj o e w w1 : take_shape o e w = (Done tt, w1) ->
  hnext (hp w1) = hnext (hp w) /\ forall o', exists m, ob w1 o' = with_mp m (ob w o').
Proof.
  intros E. assert (Id : forall s, exists m, s = with_mp m s) by (intros []; eexists; reflexivity).
  unfold take_shape in E. unfold bind at 1, get in E. destruct (eim w e).
  - apply bind_done in E. destruct E as (r & v1 & E1 & E). injection E1 as _ <-.
    apply bind_done in E. destruct E as (c & v2 & E2 & E). injection E2 as _ <-.
    unfold upd in E. injection E as <-. split; [reflexivity|]. intros o'. cbn. destruct (oid_eqb o' o) eqn:Eo; [|apply Id].
    assert (o' = o) as -> by (destruct o', o; cbn in Eo; try discriminate; apply Nat.eqb_eq in Eo; congruence). eauto.
  - injection E as <-. split; [reflexivity|]. intros. apply Id.
Qed.

Lemma assign_cost lm x e w w1 : kd (ob w (OD x)) = KBuffer -> esize w e <= max_len ->
  0 <= cap (ob w (OT x)) < 2 ^ 31 -> assign lm x e w = (Done tt, w1) ->
  1 <= esize w e /\ hnext (hp w1) = (hnext (hp w) + asks (esize w e) (ob w (OT x)))%nat /\
  kd (ob w1 (OD x)) = KBuffer /\
  alloc (ob w1 (OD x)) = true /\ esize w e <= cap (ob w1 (OD x)) < 2 ^ 31 /\ sz (ob w1 (OD x)) = esize w e /\
  alloc (ob w1 (OT x)) = true /\ cap (ob w1 (OT x)) = cap (ob w (OD x)) /\ sz (ob w1 (OT x)) = sz (ob w (OD x)).
Proof.
  intros Kd Hk Hc E. set (k := esize w e) in *. unfold assign in E. unfold bind at 1, st in E. rewrite Kd in E.
  unfold assign_buffer in E. unfold bind at 1, get in E. cbv zeta in E. fold k in E.
  apply bind_done in E. destruct E as ([] & v1 & E1 & E).
  destruct (resize_cost (OT x) k w v1 Hk ltac:(lia) E1) as (K1 & Hn & Ot & Al & Cp & Sz).
  apply bind_done in E. destruct E as ([] & v2 & E2 & E).
  pose proof (kept_fill_temp lm (OT x) (sty (ob w (OD x))) e k v1) as [F1 F2]. rewrite E2 in F1, F2. cbn [snd] in F1, F2.
  apply bind_done in E. destruct E as ([] & v3 & E3 & E).
  unfold moveit, bind, st, upd in E3. injection E3 as <-.
  destruct (kept_shape_obj _ _ _ _ E) as [T1 T2]. destruct (T2 (OD x)) as [m1 M1]. destruct (T2 (OT x)) as [m2 M2].
  rewrite T1, M1, M2. cbn [hp set_ob]. rewrite F2, Hn. cbn -[Z.pow]. rewrite !Nat.eqb_refl. cbn -[Z.pow].
  rewrite F1, (Ot (OD x)) by discriminate. rewrite Sz.
  assert (ML : max_len = 1867000000) by reflexivity. change (2 ^ 31) with 2147483648 in *.
  rewrite !to_int_small by (change (2 ^ 31) with 2147483648; lia). auto 12.
Qed.

Lemma assign_reserve lm x e w w1 : kd (ob w (OD x)) = KBuffer -> esize w e <= max_len ->
  0 <= cap (ob w (OT x)) < 2 ^ 31 -> assign lm x e w = (Done tt, w1) -> ptr (ob w1 (OT x)) = ptr (ob w (OD x)).
Proof.
  intros Kd Hk Hc E. set (k := esize w e) in *. unfold assign in E. unfold bind at 1, st in E. rewrite Kd in E.
  unfold assign_buffer in E. unfold bind at 1, get in E. cbv zeta in E. fold k in E.
  apply bind_done in E. destruct E as ([] & v1 & E1 & E).
  destruct (resize_cost (OT x) k w v1 Hk ltac:(lia) E1) as (_ & _ & Ot & _).
  apply bind_done in E. destruct E as ([] & v2 & E2 & E).
  pose proof (kept_fill_temp lm (OT x) (sty (ob w (OD x))) e k v1) as [F1 F2]. rewrite E2 in F1, F2. cbn [snd] in F1, F2.
  apply bind_done in E. destruct E as ([] & v3 & E3 & E).
  unfold moveit, bind, st, upd in E3. injection E3 as <-.
  destruct (kept_shape_obj _ _ _ _ E) as [T1 T2]. destruct (T2 (OT x)) as [m2 M2].
  rewrite M2. cbn. rewrite !Nat.eqb_refl. cbn. now rewrite F1, (Ot (OD x)) by discriminate.
Qed.

Lemma refills_cost lm x k : 0 <= k <= max_len -> forall es w w', refills lm x k es w w' -> kd (ob w (OD x)) = KBuffer ->
  0 <= cap (ob w (OD x)) < 2 ^ 31 -> 0 <= cap (ob w (OT x)) < 2 ^ 31 ->
  (hnext (hp w') <= hnext (hp w) + asks k (ob w (OT x)) + (if (k <=? cap (ob w (OD x)))%Z then 0 else 1))%nat.
Proof.
  intros Hk es w w' Rf. induction Rf as [w|e es w w1 w2 Ee Ea Rf IH]; intros Kd Cd Ct; [lia|].
  destruct (assign_cost lm x e w w1 Kd ltac:(lia) Ct Ea) as (K1 & Hn & Kd1 & Al & Cp & Sz & Al2 & Cp2 & Sz2). rewrite Ee in *.
  specialize (IH Kd1 ltac:(lia) ltac:(lia)). rewrite Hn in IH. unfold asks at 2 in IH. rewrite Al2, Cp2 in IH. cbn [andb] in IH.
  destruct (Z.leb_spec k (cap (ob w1 (OD x)))); [|lia]. destruct (k <=? cap (ob w (OD x))); lia.
Qed.

Lemma refills_room lm x k : 0 <= k <= max_len -> forall es w w', refills lm x k es w w' -> (2 <= length es)%nat -> kd (ob w (OD x)) = KBuffer ->
  0 <= cap (ob w (OD x)) < 2 ^ 31 -> 0 <= cap (ob w (OT x)) < 2 ^ 31 ->
  kd (ob w' (OD x)) = KBuffer /\ room k (ob w' (OD x)) /\ room k (ob w' (OT x)).
Proof.
  intros Hk es w w' Rf. destruct Rf as [w|e es w w1 w2 Ee Ea Rf]; cbn [List.length]; intros L Kd Cd Ct; [lia|].
  destruct (assign_cost lm x e w w1 Kd ltac:(lia) Ct Ea) as (_ & _ & Kd1 & Al & Cp & Sz & Al2 & Cp2 & Sz2). rewrite Ee in *.
  assert (Q : forall es w w', refills lm x k es w w' -> (1 <= length es)%nat -> kd (ob w (OD x)) = KBuffer -> alloc (ob w (OD x)) = true ->
    k <= cap (ob w (OD x)) < 2 ^ 31 -> sz (ob w (OD x)) = k -> 0 <= cap (ob w (OT x)) < 2 ^ 31 ->
    kd (ob w' (OD x)) = KBuffer /\ room k (ob w' (OD x)) /\ room k (ob w' (OT x))).
  { clear - Hk. intros es w w' Rf. induction Rf as [w|e es w w1 w2 Ee Ea Rf IH]; cbn [List.length]; intros L Kd Al Cp Sz Ct; [lia|].
    destruct (assign_cost lm x e w w1 Kd ltac:(lia) Ct Ea) as (K1 & _ & Kd1 & Al1 & Cp1 & Sz1 & Al2 & Cp2 & Sz2). rewrite Ee in *.
    destruct es as [|e2 es].
    - inversion Rf; subst. unfold room. rewrite Al1, Al2, Sz1, Sz2, Cp2, Sz. repeat split; auto; lia.
    - apply IH; auto; cbn [List.length]; lia. }
  apply (Q es w1); auto; lia.
Qed.

(* ---------------------------------------------------------- appending *)

Lemma kept_forN k body : (forall j, kept (body j)) -> forall i, kept (forN k i body).
Proof. intros H. induction k as [|k IH]; intros i; cbn [forN]; [apply kept_look, look_ret|]. apply kept_bind; auto. Qed.

Lemma cap115_int_le n c : 1 <= n <= 2 ^ 64 -> cap115_int n = Done c -> n < 2 ^ 31.
Proof.
  intros Hn E. destruct (mul115_trunc n Hn) as [t [T1 T2]]. unfold cap115_int, f2int in E. rewrite T1 in E.
  destruct (in_int t) eqn:It; [|discriminate]. unfold in_int, int_max, int_min in It. apply andb_prop in It. destruct It as [_ It].
  apply Z.leb_le in It. change (2 ^ 31) with 2147483648 in *. lia.
Qed.

Lemma realloc_cost o n w w1 : realloc o n w = (Done tt, w1) ->
  (exists c, cap115_int n = Done c) /\ hnext (hp w1) = S (hnext (hp w)) /\ sz (ob w1 o) = n.
Proof.
  intros E. unfold realloc in E. unfold bind at 1, st in E.
  apply bind_done in E. destruct E as (c & v1 & E1 & E). unfold lift in E1. injection E1 as Ec <-.
  apply bind_done in E. destruct E as ([] & v1 & E1 & E). unfold upd in E1. injection E1 as <-.
  apply bind_done in E. destruct E as (a & v2 & E2 & E). unfold new_ in E2. destruct (c <=? _); [|discriminate]. injection E2 as <- <-.
  apply bind_done in E. destruct E as ([] & v3 & E3 & E).
  match type of E3 with for_ ?k ?b ?v = _ => assert (K3 : ob v3 = ob v /\ hnext (hp v3) = hnext (hp v)) end.
  { match type of E3 with for_ ?k ?b ?v = _ => pose proof (kept_for k b) as Q end. lapply Q; [intros Q1|].
    - match type of E3 with for_ ?k ?b ?v = _ => specialize (Q1 v) end. rewrite E3 in Q1. exact Q1.
    - intros j. apply kept_bind; [apply kept_look, look_rd|]. intros. apply kept_wr. }
  apply bind_done in E. destruct E as ([] & v4 & E4 & E).
  assert (K4 : ob v4 = ob v3 /\ hnext (hp v4) = hnext (hp v3)).
  { match type of E4 with forN ?k ?i ?b ?v = _ => pose proof (kept_forN k b) as Q end. lapply Q; [intros Q1|].
    - match type of E4 with forN ?k ?i ?b ?v = _ => specialize (Q1 i v) end. rewrite E4 in Q1. exact Q1.
    - intros j. apply kept_wr. }
  apply bind_done in E. destruct E as ([] & v5 & E5 & E).
  assert (K5 : ob v5 = ob v4 /\ hnext (hp v5) = hnext (hp v4)).
  { unfold del in E5. destruct (ptr (ob w o)) as [b|]; [|injection E5 as <-; auto]. destruct (hblk (hp v4) b) as [|[]|]; try discriminate. injection E5 as <-. auto. }
  unfold bind, upd in E. injection E as <-. destruct K3 as [_ K3], K4 as [_ K4], K5 as [_ K5].
  split; [eauto|]. split; [cbn in *; congruence|]. destruct o; cbn; now rewrite !Nat.eqb_refl.
Qed.

Lemma push_cost o v w w1 : 0 <= sz (ob w o) -> cap (ob w o) < 2 ^ 31 -> sz (ob w o) <= cap (ob w o) -> push_back o v w = (Done tt, w1) ->
  sz (ob w1 o) = sz (ob w o) + 1 /\ cap (ob w1 o) < 2 ^ 31 /\
  (if sz (ob w o) =? cap (ob w o)
   then hnext (hp w1) = S (hnext (hp w)) /\ cap (ob w1 o) = (if sz (ob w o) =? 0 then 1 else 2 * sz (ob w o))
   else hnext (hp w1) = hnext (hp w) /\ cap (ob w1 o) = cap (ob w o)).
Proof.
  intros S0 C0 Le E. change (2 ^ 31) with 2147483648 in C0.
  assert (Wr : forall z, 0 <= z < 2 ^ 40 -> wrap64 z = z).
  { intros z Hz. unfold wrap64. change (2 ^ 64) with 18446744073709551616. change (2 ^ 40) with 1099511627776 in Hz. apply Z.mod_small. lia. }
  change (2 ^ 40) with 1099511627776 in Wr.
  assert (Sf : forall u s, ob (set_ob u o s) o = s) by (intros; destruct o; cbn; now rewrite Nat.eqb_refl).
  unfold push_back in E. unfold bind at 1, st in E. destruct (Z.eqb_spec (sz (ob w o)) (cap (ob w o))) as [Q|Q].
  - rewrite (to_int_small (sz (ob w o))) in E by (change (2 ^ 31) with 2147483648; lia). cbv zeta in E.
    rewrite (Wr (sz (ob w o) * 2)), (Wr (sz (ob w o) + 1)) in E by lia.
    set (n := if sz (ob w o) =? 0 then 1 else sz (ob w o) * 2).
    apply bind_done in E. destruct E as ([] & v1 & E1 & E).
    assert (E1' : realloc o n w = (Done tt, v1)) by (unfold n; destruct (sz (ob w o) =? 0); exact E1).
    destruct (realloc_cost o n w v1 E1') as ((c & Ec) & Hn & Sn).
    assert (B : n < 2 ^ 31).
    { apply (cap115_int_le n c); [|exact Ec]. unfold n. change (2 ^ 64) with 18446744073709551616. destruct (Z.eqb_spec (sz (ob w o)) 0); lia. }
    unfold bind at 1, upd in E. unfold bind at 1, st in E. rewrite Sf in E.
    apply bind_done in E. destruct E as ([] & v2 & E2 & E).
    match type of E2 with wr ?p ?i ?a ?u = _ => pose proof (kept_wr p i a u) as [W1 W2]; rewrite E2 in W1, W2; cbn [snd] in W1, W2 end.
    unfold upd in E. injection E as <-. rewrite !Sf, W1. cbn [sz cap with_sz with_cap hp set_ob]. rewrite W2, Sf. cbn [cap with_cap hp set_ob]. rewrite Sn.
    split; [reflexivity|]. split; [exact B|]. split; [exact Hn|]. unfold n. destruct (sz (ob w o) =? 0); lia.
  - destruct (Z.ltb_spec (sz (ob w o)) (cap (ob w o))); [|lia].
    apply bind_done in E. destruct E as ([] & v2 & E2 & E).
    match type of E2 with wr ?p ?i ?a ?u = _ => pose proof (kept_wr p i a u) as [W1 W2]; rewrite E2 in W1, W2; cbn [snd] in W1, W2 end.
    unfold upd in E. injection E as <-. rewrite !Sf, W1. cbn [sz cap with_sz with_cap hp set_ob]. rewrite (Wr (sz (ob w o) + 1)) by lia.
    change (2 ^ 31) with 2147483648. auto.
Qed.

(** k elements in 2^j places, reached by j + 1 requests. *)
Definition doubled (o : oid) (h : nat) (k : nat) (w : world) : Prop :=
  sz (ob w o) = Z.of_nat k /\ cap (ob w o) < 2 ^ 31 /\
  match k with
  | O => cap (ob w o) = 0 /\ hnext (hp w) = h
  | _ => exists j, cap (ob w o) = Z.of_nat (2 ^ j) /\ (k <= 2 ^ j)%nat /\ (j = 0 \/ 2 ^ pred j < k)%nat /\ hnext (hp w) = (h + S j)%nat
  end.
Lemma doubled_push o h k v w w1 : doubled o h k w -> push_back o v w = (Done tt, w1) -> doubled o h (S k) w1.
Proof.
  intros (Sz & Cp & Dk) E.
  assert (Le : sz (ob w o) <= cap (ob w o)). { destruct k; [destruct Dk; lia|]. destruct Dk as (j & -> & ? & _). lia. }
  destruct (push_cost o v w w1 ltac:(lia) Cp Le E) as (S1 & C1 & P). split; [lia|]. split; [exact C1|].
  destruct k as [|k].
  - destruct Dk as [D1 D2]. rewrite D1, Sz in P. cbn in P. destruct P as [P1 P2]. exists 0%nat. cbn. repeat split; try lia.
  - destruct Dk as (j & D1 & D2 & D3 & D4). destruct (Z.eqb_spec (sz (ob w o)) (cap (ob w o))) as [Q|Q]; destruct P as [P1 P2].
    + destruct (Z.eqb_spec (sz (ob w o)) 0); [lia|]. exists (S j). cbn [Nat.pow Nat.pred]. repeat split; try lia.
    + exists j. repeat split; try lia.
Qed.
Lemma doubled_pushes o h : forall vs k w w', doubled o h k w -> pushes o vs w w' -> doubled o h (k + length vs) w'.
Proof.
  intros vs k w w' D P. revert k D. induction P as [w|v vs w w1 w2 E P IH]; intros k D; cbn [List.length].
  - now rewrite Nat.add_0_r.
  - rewrite <- Nat.add_succ_comm. apply IH. now apply (doubled_push o h k v w).
Qed.
Lemma pushes_count o vs w w' : sz (ob w o) = 0 -> cap (ob w o) = 0 -> pushes o vs w w' ->
  hnext (hp w') = (hnext (hp w) + match vs with [] => 0 | _ => 1 + Nat.log2_up (length vs) end)%nat.
Proof.
  intros S0 C0 P. assert (D : doubled o (hnext (hp w)) 0 w).
  { split; [exact S0|]. rewrite C0. split; [reflexivity|auto]. }
  pose proof (doubled_pushes o (hnext (hp w)) vs 0 w w' D P) as (_ & _ & D'). rewrite Nat.add_0_l in D'.
  destruct vs as [|v vs]; cbn [List.length] in *; [destruct D'; lia|]. destruct D' as (j & _ & D2 & D3 & D4).
  rewrite D4. cut (Nat.log2_up (S (length vs)) = j); [lia|]. destruct j as [|j].
  - cbn in D2. assert (length vs = 0%nat) as -> by lia. reflexivity.
  - apply Nat.log2_up_unique; [lia|]. lia.
Qed.
Lemma pushes_room o vs w w' : sz (ob w o) = 0 -> cap (ob w o) = 0 -> pushes o vs w w' ->
  sz (ob w' o) = Z.of_nat (length vs) /\ (vs <> [] -> sz (ob w' o) <= cap (ob w' o) < 2 * sz (ob w' o)).
Proof.
  intros S0 C0 P. assert (D : doubled o (hnext (hp w)) 0 w).
  { split; [exact S0|]. rewrite C0. split; [reflexivity|auto]. }
  pose proof (doubled_pushes o (hnext (hp w)) vs 0 w w' D P) as (Sz & _ & D'). rewrite Nat.add_0_l in *. split; [exact Sz|]. rewrite Sz.
  destruct vs as [|v vs]; cbn [List.length] in *; [now intros []|]. intros _. destruct D' as (j & -> & D2 & D3 & D4).
  split; [lia|]. destruct j as [|j]; [cbn; lia|]. cbn [Nat.pow Nat.pred] in *. destruct D3; lia.
Qed.
