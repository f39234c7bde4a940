(** Property C80: memory safety of programs with scopes, loops, exceptions,
    vectors and matrices. *)
From Coq Require Import String ZArith List Bool Lia.
From Verif Require Import Base Num StoreModel VecModel SubsetModel AllocModel ProgModel LangModel Spec SpecExpr SpecHist SpecSafe SpecLang StoreThms SafeProofs LangProofs Examples PropVec.
Import ListNotations.
Open Scope Z_scope.
Local Notation length := List.length (only parsing).

(** C80: a program the compiler accepts, however its statements are nested,
    whatever the subscripts, the lengths and the values, whichever exceptions
    it catches: the only undefined behaviour is that of arithmetic and of
    reading an element never written.  Otherwise every vector of L still owns
    its memory, or has the memory it borrows or wraps, no other vector owns
    anything, and nothing has leaked.  Vectors that wrap R objects (those of R)
    must not get another length or another value as a whole. *)
Theorem c80_addresses : forall N lm s R D L V w, incl V L -> scoped L V s -> keeps R s -> sound_at (Mode false R D) L w ->
  match lrun N lm s w with
  | (Done true, w') | (Thrown (Ass _), w') => sound_at (Mode false R D) L w'
  | (Done false, w') => exists L', incl L L' /\ sound_at (Mode false R D) L' w'
  | (Thrown BadAlloc, _) => True
  | (Undef u, _) => arithmetic u \/ u = UB_uninit
  end.
Proof.
  intros N lm s R D L V w I Sc K S. pose proof (lrun_ends (Mode false R D) N lm s L V w I Sc ltac:(discriminate) K S) as G.
  destruct (lrun N lm s w) as [[[|]|[m|]|u] w']; cbn [ends_well] in G; auto. destruct G as [G|[_ G]]; auto.
Qed.
Print Assumptions c80_addresses.

(** No unwritten element is read by programs without resize and without the
    assignment of a subset of a variable to a subset. *)
Theorem c80_elements : forall N lm s R D L V w, incl V L -> scoped L V s -> keeps R s -> writes_all s -> sound_at (Mode true R D) L w ->
  match lrun N lm s w with
  | (Done true, w') | (Thrown (Ass _), w') => sound_at (Mode true R D) L w'
  | (Done false, w') => exists L', incl L L' /\ sound_at (Mode true R D) L' w'
  | (Thrown BadAlloc, _) => True
  | (Undef u, _) => arithmetic u
  end.
Proof.
  intros N lm s R D L V w I Sc K W S. pose proof (lrun_ends (Mode true R D) N lm s L V w I Sc (fun _ => W) K S) as G.
  destruct (lrun N lm s w) as [[[|]|[m|]|u] w']; cbn [ends_well] in G; auto. destruct G as [G|[G _]]; [exact G|discriminate].
Qed.
Print Assumptions c80_elements.

(** A whole program: when it ends, normally or by an exception of the library
    that it does not catch, nothing is allocated. *)
Theorem c80_all_released : forall N lm s lim r w, 0 <= lim < 2 ^ 31 -> scoped [] [] s ->
  lrun N lm s (empty_world lim) = (r, w) -> r = Done true \/ (exists m, r = Thrown (Ass m)) ->
  forall a cells, hblk (hp w) a <> Live OwnCpp cells.
Proof.
  intros N lm s lim r w L Sc H E a cells B.
  pose proof (lrun_ends false N lm s [] [] _ (fun x q => q) Sc ltac:(discriminate) (keeps_nil s) (sound_empty false lim eq_refl L)) as G. rewrite H in G.
  assert (S : sound_at false [] w) by (destruct E as [-> | [m ->]]; exact G).
  destruct (so_leak _ _ _ S a cells B) as [[x|x] O]; destruct (so_dead _ _ _ S x (fun q => q)) as [U1 U2]; [apply (U1 a)|apply (U2 a)]; exact O.
Qed.
Print Assumptions c80_all_released.

(** The same holds of the programs of C66 and C67, which are among these: they
    run as programs of this language unless memory runs out. *)
Theorem c80_programs : forall N lm s L V w, incl V L -> scoped L V (of_stmt s) -> sound_at false L w ->
  fst (lrun N lm (of_stmt s) w) = Thrown BadAlloc \/
  (run N lm s w = lrun N lm (of_stmt s) w /\
   match run N lm s w with
   | (Done true, w') | (Thrown (Ass _), w') => sound_at false L w'
   | (Done false, w') => exists L', incl L L' /\ sound_at false L' w'
   | (Thrown BadAlloc, _) => False
   | (Undef u, _) => arithmetic u \/ u = UB_uninit
   end).
Proof.
  intros N lm s L V w I Sc S.
  assert (D : fst (lrun N lm (of_stmt s) w) = Thrown BadAlloc \/ fst (lrun N lm (of_stmt s) w) <> Thrown BadAlloc).
  { destruct (fst (lrun N lm (of_stmt s) w)) as [b|[m|]|u]; [right; discriminate|right; discriminate|now left|right; discriminate]. }
  destruct D as [D|D]; [now left|right].
  pose proof (of_stmt_agree lm N s w D) as E. split; [exact E|]. rewrite E.
  pose proof (c80_addresses N lm (of_stmt s) [] [] L V w I Sc (keeps_nil _) S) as G.
  destruct (lrun N lm (of_stmt s) w) as [[[|]|[m|]|u] w']; cbn [fst] in D; auto.
Qed.
Print Assumptions c80_programs.

(** A program with a matrix, its columns, a subscript error that is caught, a
    loop over colon, a conditional, a while loop and a nested declaration; it
    ends with an error (a subscript out of range) that it does not catch. *)
Definition ex_lang (last : lstmt) : lstmt :=
  LLet 0 9 TDouble (LMMatrix (LS d1) (LS (VI 2)) (LS (VI 3)))
    (LSeq (LSub2 8 0 (LXB true) (LXZ 1) false (LBin OPlus (LSel2 (LVar 0) (LXB true) (LXZ 2)) (LLit d2)))
    (LSeq (LTry (LSeq (LAt2Set 0 (PZ 2) (PZ 3) d2) (LAt2Set 0 (PZ 7) (PZ 7) d2)) (LAtSet 0 (PZ 3) d3))
    (LSeq (LFor 7 (LMColon (LS (VI 1)) (LV TInt (LLen (LVar 0)))) (fun v =>
             LIf (LBin OGt (LVar 0) (LLit d1)) (LSubScalar 0 (LXZ 2) v) (LElem 0 4 v)))
    (LDecl 2 TBool (LBin OGt (LVar 0) (LLit d1))
    (LDecl 1 TInt (LBin OTimes (LSel (LVar 0) (LXV TBool (LVar 2))) (LLit d2))
      (LSeq (LWhile (LBin OLt (LAt 1 (PZ 1)) (LLit (VI 20))) (LAssign 1 (LBin OPlus (LVar 1) (LLit (VI 3)))))
      (LScal (LLen (LVar 1)) (fun v => LSeq (LFill 1 v) last)))))))).
Definition ex_last : lstmt := LSeq (LAssign 0 (LBin OPlus (LVar 0) (LVar 1))) (LAtSet 1 (PZ 50) d1).
Lemma ex_lang_scoped last : scoped [1; 2; 0]%nat [1; 2; 0]%nat last -> scoped [] [] (ex_lang last).
Proof.
  intros H. unfold ex_lang. cbn. unfold incl. cbn. intuition (try discriminate).
Qed.
Example c80_ex : scoped [] [] (ex_lang ex_last) /\ writes_all (ex_lang ex_last) /\ sound [] (empty_world 100) /\
  (exists m, fst (lrun 20 ex_lm (ex_lang ex_last) (empty_world 100)) = Thrown (Ass m)) /\
  fst (lrun 20 ex_lm (ex_lang LSkip) (empty_world 100)) = Done true /\
  fst (lrun 20 ex_lm (ex_lang (LAtSet 0 (PZ 6) (VI 5))) (empty_world 100)) = Done true.
Proof.
  split; [apply ex_lang_scoped; cbn; unfold incl; cbn; intuition|].
  split; [cbn; tauto|]. split; [apply (sound_empty true); [reflexivity|lia]|].
  split; [eexists; vm_compute; reflexivity|]. split; vm_compute; reflexivity.
Qed.

(** [writes_all] is needed: resize within the capacity leaves the new
    elements unwritten. *)
Example c80_elements_ex : let s := LSized 0 TDouble 7 (LSeq (LResize 0 20) (LSeq (LResize 0 22) (LScal (LAt 0 (PZ 22)) (fun _ => LSkip)))) in
  scoped [] [] s /\ fst (lrun 1 ex_lm s (empty_world 100)) = Undef UB_uninit.
Proof. split; [cbn; unfold incl; cbn; intuition|vm_compute; reflexivity]. Qed.

(** The Fibonacci program is one of those of c80_programs. *)
Example c80_programs_ex : scoped [] [] (of_stmt (fibonacci 0 1 2 3 false 9 TSkip)) /\ sound_at false [] (empty_world 100) /\
  fst (run 1 ex_lm (fibonacci 0 1 2 3 false 9 TSkip) (empty_world 100)) = Done true.
Proof.
  split; [|split; [apply sound_empty; [reflexivity|lia]|vm_compute; reflexivity]].
  cbn [of_stmt fibonacci scoped]. repeat match goal with |- _ /\ _ => split | |- forall v : val, _ => intros v; destruct v; cbn [of_stmt scoped] end.
  all: cbn; unfold incl; cbn; intuition (try discriminate).
Qed.

(** Out of memory is left out for a reason: resize releases the old memory
    before it asks for the new (BaseStore.hpp 267-269), so that leaving the
    scope after a failed resize releases it a second time. *)
Example c80_no_memory_ex : fst ((vec_sized 0 TDouble 3 ;; scope 0 (any_resize (OD 0) 1000 ;; ret true)) (empty_world 100)) = Undef UB_double_free.
Proof. vm_compute. reflexivity. Qed.
