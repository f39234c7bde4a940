(** Functions called from R: what they give back, on lists with shapes. *)
From Coq Require Import ZArith List String Bool.
From Verif Require Import Base Num StoreModel VecModel SubsetModel AllocModel ProgModel LangModel OutModel ForeignModel CallModel
  Spec SpecExpr SpecHist SpecProg SpecSub SpecAlloc SpecCons SpecStmt SpecMat SpecOut SpecForeign.
Import ListNotations.
Open Scope Z_scope.
Local Notation length := List.length (only parsing).

(** A new R object with elements us of type t and dimensions d; an exception;
    not yet an end. *)
Inductive fres := Given (t : ety) (us : list val) (d : dims) | Failed (e : exn) | Unfinished.

(** Handing the value of e, of element type t, to R: the shape has to fit the number of elements,
    then the first element that cannot be computed decides. *)
Definition back (lm : libm) (lim : Z) (s : mstate) (t : ety) (e : expr) (r : fres) : Prop :=
  wf_expr (fst s) e /\ xsize (fst s) e < 2 ^ 31 /\ xsize (fst s) e <= lim /\
  (forall nr nc, xdims (snd s) e = Some (nr, nc) -> 0 <= nr < 2 ^ 31 /\ 0 <= nc < 2 ^ 31) /\
  if match xdims (snd s) e with Some (nr, nc) => nr * nc =? xsize (fst s) e | None => true end then
    match value lm (fst s) (in_R t) e with
    | Done us => r = Given t us (xdims (snd s) e)
    | Thrown (Ass m) => r = Failed (Ass m)
    | _ => False
    end
  else r = Failed (Ass "size does not match ncol*nrow").

Definition fgiven {A} (o : outcome A) (k : A -> Prop) (r : fres) : Prop :=
  match o with Done a => k a | Thrown (Ass m) => r = Failed (Ass m) | _ => False end.

Fixpoint fsem (N : nat) (lm : libm) (ty : nat -> ety) (lim : Z) (V : list nat) (b : fbody) (s : mstate) (r : fres) : Prop :=
  match b with
  | FRet t e => exists a, lmeans lm V (fst s) (snd s) e a /\ fgiven a (fun e' => back lm lim s t e' r) r
  | FDo p k => exists r1 (s1 : mstate), lsem N lm ty lim [] V p s r1 s1 /\
      match r1 with
      | Ended => fsem N lm ty lim V k s1 r
      | Raised e => r = Failed e
      | Running => r = Unfinished
      end
  | FIf c a b => exists o, lvalue lm V s c o /\
      fgiven o (fun v => if truth v then fsem N lm ty lim V a s r else fsem N lm ty lim V b s r) r
  | FScal e body => exists o, lvalue lm V s e o /\ fgiven o (fun v => fsem N lm ty lim V (body v) s r) r
  | FLet x t ety m k => exists l d, ~ In x V /\ ~ In t V /\ x <> t /\ ty x = ety /\
      lcreates lm V lim (fst s) (snd s) m ety l d /\
      fsem N lm ty lim (x :: V) k (setl (fst s) x l, setd (snd s) x d) r
  | FDecl x t e k => ~ In x V /\ ty x = t /\ exists a, lmeans lm V (fst s) (snd s) e a /\
      fgiven a (fun e' => wf_expr (fst s) e' /\ 1 <= xsize (fst s) e' <= max_len /\ 2 * xsize (fst s) e' <= lim /\
        fgiven (value lm (fst s) t e') (fun us =>
          fsem N lm ty lim (x :: V) k (setl (fst s) x us, setd (snd s) x (xdims (snd s) e')) r) r) r
  end.

(** Between two calls: no vector of the library has memory. *)
Definition at_rest (w : world) : Prop :=
  world_shape w /\ (forall o, kd (ob w o) = KBuffer /\ ptr (ob w o) = None) /\
  forall a cs, hblk (hp w) a <> Live OwnCpp cs.

(** R object p holds elements which, converted to the type of the parameter
    (NA of a logical object becomes true: c57_missing_refuted), are those of s,
    and has the dimensions of s. *)
Definition passed (w : world) (s : mstate) (p : param) : Prop :=
  exists xs, r_has w (p_obj p) xs /\ r_ty (p_obj p) = p_type p /\
    converted (p_type p) xs (fst s (p_name p)) /\ snd s (p_name p) = r_dim (p_obj p) /\
    Z.of_nat (length xs) <= hlim (hp w).

(** The memory of R and of others. *)
Definition foreign_kept (w w' : world) : Prop :=
  forall a own cs, own <> OwnCpp -> hblk (hp w) a = Live own cs -> hblk (hp w') a = Live own cs.

(** How the call ended; a result is a new object. *)
Definition ends_with (w w' : world) (out : outcome (option robj)) (r : fres) : Prop :=
  match r with
  | Given t us d => exists o, out = Done (Some o) /\ r_ty o = t /\ r_dim o = d /\
      hblk (hp w') (r_mem o) = Live OwnR (map Some us) /\ hblk (hp w) (r_mem o) = Unused
  | Failed e => out = Thrown e
  | Unfinished => out = Done None
  end.
