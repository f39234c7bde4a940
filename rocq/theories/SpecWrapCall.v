(** Functions that use the memory of R objects: what is R's afterwards, and
    sessions of such calls. *)
From Coq Require Import ZArith List String Bool.
From Verif Require Import Base Num StoreModel VecModel SubsetModel AllocModel ProgModel LangModel OutModel ForeignModel CallModel JumpModel WrapCallModel
  Spec SpecExpr SpecHist SpecForeign SpecSafe SpecLang SpecCall SpecSession SpecJump.
Import ListNotations.
Open Scope Z_scope.
Local Notation length := List.length (only parsing).

Definition w_name (p : wparam) : nat := p_name (w_par p).
Definition w_obj (p : wparam) : robj := p_obj (w_par p).
(** The parameters that wrap their objects, and the memory they use. *)
Definition wraps (p : wparam) : bool := match w_how p with ByWrap => true | ByCopy => false end.
Definition wrapped_names (ps : list wparam) : list nat := map w_name (filter wraps ps).
Definition wrapped_mem (ps : list wparam) : list nat := map (fun p => r_mem (w_obj p)) (filter wraps ps).

(** The memory of R and of others: what is not wrapped is unchanged. *)
Definition unwrapped_kept (ps : list wparam) (w w' : world) : Prop :=
  forall a own cs, own <> OwnCpp -> hblk (hp w) a = Live own cs -> ~ In a (wrapped_mem ps) -> hblk (hp w') a = Live own cs.
(** Wrapped or not: as many elements as before. *)
Definition lengths_kept (w w' : world) : Prop :=
  forall a own cs, own <> OwnCpp -> hblk (hp w) a = Live own cs -> exists cs', hblk (hp w') a = Live own cs' /\ length cs' = length cs.
(** R object r has elements (as many as r_length says). *)
Definition nonempty (w : world) (r : robj) : Prop := forall own cs, hblk (hp w) (r_mem r) = Live own cs -> cs <> [].

(** A body that may be called with these parameters. *)
Definition wcall_ok (ps : list wparam) (b : jstmt) : Prop :=
  NoDup (map w_name ps) /\ scoped_j false (rev (map w_name ps)) (rev (map w_name ps)) b /\ keeps_j (wrapped_names ps) b.

(** Sessions; as [session].  [nv]: objects that have elements. *)
Inductive wsession := WEnd | WCall (ps : list wparam) (b : jstmt) (k : option robj -> wsession).
Fixpoint wsession_ok (av nv : list robj) (s : wsession) : Prop :=
  match s with
  | WEnd => True
  | WCall ps b k => wcall_ok ps b /\ returns b /\
      (forall p, In p ps -> In (w_obj p) av /\ (wraps p = true -> In (w_obj p) nv)) /\
      wsession_ok av nv (k None) /\ forall o, wsession_ok (o :: av) nv (k (Some o))
  end.
Fixpoint wsession_writes_all (s : wsession) : Prop :=
  match s with
  | WEnd => True
  | WCall ps b k => writes_all_j b /\ forall o, wsession_writes_all (k o)
  end.
(** No call of the session wraps the block. *)
Fixpoint wsession_avoids (a : nat) (s : wsession) : Prop :=
  match s with
  | WEnd => True
  | WCall ps b k => ~ In a (wrapped_mem ps) /\ forall o, wsession_avoids a (k o)
  end.
(** [inl]: the session is over; [inr]: what stopped it. *)
Fixpoint run_wsession (N : nat) (lm : libm) (s : wsession) (w : world) : (unit + outcome flow) * world :=
  match s with
  | WEnd => (inl tt, w)
  | WCall ps b k =>
      match wcall N lm ps b w with
      | (Done (Gave o), w') => run_wsession N lm (k (Some o)) w'
      | (Thrown (Ass _), w') => run_wsession N lm (k None) w'
      | (r, w') => (inr r, w')
      end
  end.
