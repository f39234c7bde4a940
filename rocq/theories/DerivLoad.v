(** Derivative mode: AllVars objects with Borrow and BorrowSEXP inputs. *)
From Coq Require Import ZArith List Bool Lia Arith.
From Coq.Floats Require Import SpecFloat.
From Verif Require Import Base Num StoreModel VecModel Spec StoreProofs SpecVec VecProofs BorrowProofs FillProofs
  DerivModel SpecDeriv DerivProofs DerivProofs2 DerivPrime DerivProofs3.
Import ListNotations.
Open Scope Z_scope.
Local Notation length := List.length (only parsing).

Lemma user_block_shape w own l : world_shape w -> own <> OwnCpp -> Z.of_nat (length l) <= 2 ^ 60 ->
  world_shape (user_block w own l).
Proof.
  intros W NO L. split.
  - intros a Ha. simpl in *. replace (Nat.eqb a (hnext (hp w))) with false by (symmetry; apply Nat.eqb_neq; lia).
    apply (ws_fresh _ W). lia.
  - intros o. destruct (user_block_same w own l o W) as [E SB].
    pose proof (ws_store _ W o) as S. unfold store_shape in *. rewrite E.
    destruct (ptr (ob w o)); [|exact S]. rewrite (SB _ eq_refl). exact S.
  - apply (ws_sep _ W).
  - apply (ws_lim _ W).
  - intros a own' cs. simpl. destruct (Nat.eqb a (hnext (hp w))).
    + intros H. injection H as <- <-. rewrite map_length. split; [exact L|congruence].
    + apply (ws_len _ W).
Qed.

(** One more object on a new foreign block. *)
Lemma put_foreign w o own k l : world_shape w -> own <> OwnCpp -> l <> [] -> Z.of_nat (length l) <= 2 ^ 60 ->
  (k = KBorrow /\ own = OwnExt \/ k = KBorrowSEXP /\ own = OwnR) ->
  let w' := set_ob (user_block w own l) o (mkStore k TDouble (Some (hnext (hp w))) (Z.of_nat (length l))
    (Z.of_nat (length l)) true mp_none false) in
  world_shape w' /\ holds w' o l /\ forall o', o' <> o -> same_obj w w' o'.
Proof.
  intros W NO Ne L K w'.
  assert (W1 : world_shape (user_block w own l)) by now apply user_block_shape.
  assert (B : hblk (hp (user_block w own l)) (hnext (hp w)) = Live own (map Some l))
    by (simpl; now rewrite Nat.eqb_refl).
  split; [|split].
  - apply set_shape; [exact W1| |].
    + intros b [_ O]. unfold owner_of in O. cbn in O. destruct K as [[-> _]|[-> _]]; discriminate.
    + unfold store_shape. cbn [sz cap ptr alloc]. split; [lia|]. split; [lia|]. split; [reflexivity|].
      exists (map Some l). rewrite B, map_length. split; [|lia].
      destruct K as [[-> ->]|[-> ->]]; reflexivity.
  - unfold w'. split; [rewrite ob_set_same; reflexivity|].
    intros i Hi.
    assert (Lt : (Z.of_nat i <? Z.of_nat (length l)) = true) by (apply Z.ltb_lt; lia).
    assert (R : rd (Some (hnext (hp w))) (Z.of_nat i) (set_ob (user_block w own l) o
      (mkStore k TDouble (Some (hnext (hp w))) (Z.of_nat (length l)) (Z.of_nat (length l)) true mp_none false)) =
      (Done (nth i l (VB false)), w')).
    { unfold rd. change (hp (set_ob (user_block w own l) o ?s)) with (hp (user_block w own l)). cbn [hp set_ob]. rewrite B, map_length, Lt.
      replace (0 <=? Z.of_nat i) with true by (symmetry; apply Z.leb_le; lia). cbn [andb].
      rewrite Nat2Z.id, map_some_nth by exact Hi. reflexivity. }
    unfold at_rd. rewrite bind_st, ob_set_same. cbn [kd].
    destruct K as [[-> ->]|[-> ->]]; cbn [kd];
      [unfold get_at|unfold sexp_get_at]; rewrite bind_st, ob_set_same; cbn [alloc sz ptr];
      unfold ass at 1; unfold ret at 1; unfold bind at 1; rewrite Lt; exact R.
  - intros o' No. destruct (user_block_same w own l o' W) as [E SB]. split.
    + unfold w'. rewrite ob_set_other by auto. exact E.
    + exact SB.
Qed.

Lemma load_started c ins d x l : started c ins d -> ins x = None -> knd x <> KBuffer -> l <> [] ->
  2 * Z.of_nat (length l) <= hlim (hp (dw d)) ->
  (Z.of_nat (num x) = indep c -> forall y, ins y <> None -> num y <> num x) ->
  started c (with_input ins x l) (load x l d).
Proof.
  intros HS Nx Kx Ne Ll One. pose proof HS as [W F I Rs O].
  set (own := match knd x with KBorrow => OwnExt | _ => OwnR end).
  pose proof (ws_lim _ W) as WL.
  destruct (put_foreign (dw d) (OD (vslot x)) own (knd x) (map VD l) W) as [W' [H' S']].
  { unfold own. destruct (knd x); congruence. }
  { destruct l; [congruence|discriminate]. }
  { rewrite map_length. lia. }
  { unfold own. destruct (knd x); auto. congruence. }
  set (w' := set_ob _ _ _) in W', H', S'.
  assert (E : load x l d = mkDw w' (dinit d)).
  { unfold load, w', own. rewrite map_length. destruct x as [k n]. cbn [knd] in *. destruct k; try congruence; reflexivity. }
  assert (B' : ob w' (OD (vslot x)) = mkStore (knd x) TDouble (Some (hnext (hp (dw d)))) (Z.of_nat (length (map VD l)))
    (Z.of_nat (length (map VD l))) true mp_none false) by (unfold w'; now rewrite ob_set_same).
  rewrite E. split; cbn [dw dinit].
  - exact W'.
  - exact F.
  - intros y vs. unfold with_input. destruct (dvar_dec y x) as [->|Ny].
    + intros Q. injection Q as <-. split; [exact Kx|]. split; [exact Ne|]. split; [exact Ll|].
      rewrite B'. split; [reflexivity|]. split; [reflexivity|exact H'].
    + intros Q. destruct (I y vs Q) as [I1 [I2 [I3 [I4 [I5 I6]]]]].
      assert (So : same_obj (dw d) w' (OD (vslot y))).
      { apply S'. intros X. apply od_inj, slots_v in X. now apply Ny. }
      split; [exact I1|]. split; [exact I2|]. split; [exact I3|]. rewrite (proj1 So).
      split; [exact I4|]. split; [exact I5|]. now apply (holds_same (dw d)).
  - intros o No. rewrite (proj1 (S' o (No x ltac:(unfold with_input; destruct (dvar_dec x x); congruence)))).
    apply Rs. intros y Hy. apply No. unfold with_input. destruct (dvar_dec y x); congruence.
  - intros y z. unfold with_input. destruct (dvar_dec y x) as [->|Ny], (dvar_dec z x) as [->|Nz]; intros Hy Hz Eq En.
    + reflexivity.
    + exfalso. now apply (One Eq z Hz).
    + exfalso. apply (One ltac:(congruence) y Hy). congruence.
    + now apply (O y z).
Qed.
