(** Meaning of structured programs on lists: the specification of the
    refinement theorem for programs with declarations, branches and loops. *)
From Coq Require Import ZArith List String Bool Reals.
From Verif Require Import Base Num StoreModel VecModel SubsetModel AllocModel ProgModel FloatBridge
  Spec SpecExpr SpecHist SpecProg SpecSub SpecAlloc.
Import ListNotations.
Open Scope Z_scope.
Local Notation length := List.length (only parsing).

(** The elements of e are the list l. *)
Definition denotes (lm : libm) (rho : state) (e : expr) (l : list val) : Prop :=
  Z.of_nat (length l) = xsize rho e /\
  forall i, (i < length l)%nat -> xval lm rho e (Z.of_nat i) = Done (nth i l (VB false)).

(** The 0-based positions an index argument stands for, when a vector of d
    elements is subset.  A position z <= 0 wraps around, so that it lies beyond
    the end of every vector; read from an operation or a subset it is a double
    and must not be below 1. *)
Inductive picks (lm : libm) (rho : state) (d : Z) : index -> list Z -> Prop :=
| Pk_all : 1 <= d < 2 ^ 64 -> picks lm rho d (IB true) (zseq 0 (Z.to_nat d))
| Pk_int z : - 2 ^ 31 < z < 2 ^ 31 -> picks lm rho d (IZ z) [(z - 1) mod 2 ^ 64]
| Pk_dbl f z : int_part f z -> 1 <= z < 2 ^ 31 -> picks lm rho d (IF f) [z - 1]
| Pk_mask e bs ps : d < 2 ^ 64 -> wf_expr rho e -> denotes lm rho e (map VB bs) -> bs <> [] ->
    ps = map Z.of_nat (filter (fun i => nth (i mod length bs) bs false) (seq 0 (Z.to_nat d))) -> ps <> [] ->
    picks lm rho d (IV TBool e) ps
| Pk_ints e zs : wf_expr rho e -> denotes lm rho e (map VI zs) -> zs <> [] -> Z.of_nat (length zs) < 2 ^ 64 ->
    (forall z, In z zs -> - 2 ^ 31 < z < 2 ^ 31) -> (own_type e = false -> forall z, In z zs -> 1 <= z) ->
    picks lm rho d (IV TInt e) (map (fun z => (z - 1) mod 2 ^ 64) zs)
| Pk_dbls e fs zs : wf_expr rho e -> denotes lm rho e (map VD fs) -> zs <> [] -> Z.of_nat (length zs) < 2 ^ 64 ->
    Forall2 int_part fs zs -> (forall z, In z zs -> 1 <= z < 2 ^ 31) ->
    picks lm rho d (IV TDouble e) (map (fun z => z - 1) zs).

(** The expression with fixed positions that a written expression stands for
    in the state rho; V are the variables in scope. *)
Fixpoint means (lm : libm) (V : list nat) (rho : state) (e : pexpr) (e' : expr) : Prop :=
  match e with
  | PVar x => In x V /\ e' = EVar x
  | PLit v => e' = ESca v
  | PBin op l r => exists l' r', means lm V rho l l' /\ means lm V rho r r' /\ e' = EBin op l' r'
  | PUn op e => exists e1, means lm V rho e e1 /\ e' = EUn op e1
  | PSel e i => exists e1 i1 ps, means lm V rho e e1 /\ wf_expr rho e1 /\ means_index lm V rho i i1 /\
      picks lm rho (xsize rho e1) i1 ps /\ e' = ESub e1 ps mp_none
  end
with means_index (lm : libm) (V : list nat) (rho : state) (i : pindex) (i' : index) : Prop :=
  match i with
  | XB b => i' = IB b
  | XZ z => i' = IZ z
  | XF f => i' = IF f
  | XV t e => exists e1, means lm V rho e e1 /\ i' = IV t e1
  end.

(** The elements of an argument; a scalar has one. *)
Definition arg_is (lm : libm) (V : list nat) (rho : state) (a : parg) (l : list val) : Prop :=
  match a with
  | QS v => l = [v]
  | QV t e => exists e', means lm V rho e e' /\ wf_expr rho e' /\ denotes lm rho e' l
  end.
Definition parg_ty (a : parg) : ety := match a with QS v => ty_of v | QV t _ => t end.

(** v is the integer z, exactly. *)
Definition int_val (v : val) (z : Z) : Prop :=
  match v with
  | VB b => b2z b = z
  | VI k => k = z
  | VD d => valid d /\ finite d /\ fR d = IZR z
  end.

(** a, a +- 1, ..., b *)
Definition count_from (a b : Z) : list Z :=
  map (fun k => if a <=? b then a + Z.of_nat k else a - Z.of_nat k) (seq 0 (Z.to_nat (Z.abs (a - b) + 1))).

(** All elements have the type of the argument. *)
Definition of_type (a : parg) (l : list val) : Prop := forall u, In u l -> ty_of u = parg_ty a.

(** The r-value made by a call has elements of type t, and they are l; at most
    lim / 2 elements can be had.  Ranges of doubles: positive integers. *)
Definition creates (lm : libm) (V : list nat) (lim : Z) (rho : state) (m : maker) (t : ety) (l : list val) : Prop :=
  2 * Z.of_nat (length l) <= lim /\
  match m with
  | MVector vt a => exists v n, arg_is lm V rho a [v] /\ size_is v n /\ 1 <= n /\ t = TDouble /\
      l = repeat (VD fzero) (Z.to_nat n)
  | MColon a b => exists us vs p q, arg_is lm V rho a us /\ arg_is lm V rho b vs /\
      us <> [] /\ vs <> [] /\ of_type a us /\ of_type b vs /\
      int_val (hd (VB false) us) p /\ int_val (hd (VB false) vs) q /\
      - 2 ^ 30 < p < 2 ^ 30 /\ - 2 ^ 30 < q < 2 ^ 30 /\ t = common (parg_ty a) (parg_ty b) /\
      match t with
      | TBool => False
      | TInt => l = map VI (count_from p q)
      | TDouble => 0 < p /\ 0 < q /\ l = map (fun z => VD (i2f z)) (count_from p q)
      end
  | MRep i n => exists us vs k, arg_is lm V rho i us /\ us <> [] /\ of_type i us /\
      arg_is lm V rho n vs /\ vs <> [] /\ of_type n vs /\ size_is (hd (VB false) vs) k /\ 1 <= k /\
      t = parg_ty i /\ l = List.concat (repeat us (Z.to_nat k))
  | MCoca args => exists ls, Forall2 (arg_is lm V rho) args ls /\ Forall2 of_type args ls /\
      (exists a, In a args /\ parg_ty a = t) /\ (forall a, In a args -> (level (parg_ty a) <= level t)%nat) /\
      Forall2 (fun v u => cast t v = Done u) (List.concat ls) l /\ l <> [] /\ Z.of_nat (length l) < 2 ^ 31
  end.

(** How the execution of a statement ends; [Running]: it has not ended yet. *)
Inductive res := Ended | Running | Raised (e : exn).

(** A statement that is one assignment.  [H]: names of other live vectors. *)
Definition single_cmd (lm : libm) (H V : list nat) (rho : state) (s : stmt) (c : cmd) : Prop :=
  match s with
  | TAssign x e => exists e', means lm V rho e e' /\ c = CAssign x e'
  | TScalar x v => c = CScalar x v
  | TSub s x i same e => exists i' ps e', ~ In s H /\ means_index lm V rho i i' /\
      picks lm rho (Z.of_nat (length (rho x))) i' ps /\ means lm V rho e e' /\ c = CSub s x ps same e'
  | TSubScalar x i v => exists i' ps, means_index lm V rho i i' /\
      picks lm rho (Z.of_nat (length (rho x))) i' ps /\ c = CSubScalar x ps v
  | TAt x i v => exists z, pos_is i z /\ 1 <= z <= Z.of_nat (length (rho x)) /\ z < 2 ^ 31 /\ c = CElem x (z - 1) v
  | _ => False
  end.

(** The outcome of a condition. *)
Definition decides (lm : libm) (V : list nat) (rho : state) (c : pexpr) (b : outcome bool) : Prop :=
  exists e, means lm V rho c e /\ wf_expr rho e /\ 1 <= xsize rho e /\
    b = (v <-o xval lm rho e 0 ;; Done (truth v)).

Definition after {St : Type} (r : res) (rho : St) (k : St -> res -> St -> Prop) (r' : res) (rho' : St) : Prop :=
  match r with Ended => k rho r' rho' | _ => r' = r /\ rho' = rho end.

Fixpoint while_spec {St : Type} (k : nat) (cond : St -> outcome bool -> Prop) (body : St -> res -> St -> Prop)
    (rho : St) (r : res) (rho' : St) : Prop :=
  match k with
  | O => r = Running /\ rho' = rho
  | S k' => exists b, cond rho b /\
      match b with
      | Done true => exists r1 rho1, body rho r1 rho1 /\ after r1 rho1 (while_spec k' cond body) r rho'
      | Done false => r = Ended /\ rho' = rho
      | Thrown e => r = Raised e /\ rho' = rho
      | Undef _ => False
      end
  end.

Fixpoint each_spec {St : Type} (vs : list val) (body : val -> St -> res -> St -> Prop)
    (rho : St) (r : res) (rho' : St) : Prop :=
  match vs with
  | [] => r = Ended /\ rho' = rho
  | v :: t => exists r1 rho1, body v rho r1 rho1 /\ after r1 rho1 (each_spec t body) r rho'
  end.

(** With at most N rounds of every while loop, statement s leads from rho to
    rho' and ends as r says.  [V] are the vectors in scope, [H] those a loop
    runs over; new vectors have new names. *)
Fixpoint sem (N : nat) (lm : libm) (ty : nat -> ety) (lim : Z) (H V : list nat) (s : stmt)
    (rho : state) (r : res) (rho' : state) : Prop :=
  match s with
  | TSkip => r = Ended /\ rho' = rho
  | TSeq a b => exists r1 rho1, sem N lm ty lim H V a rho r1 rho1 /\ after r1 rho1 (sem N lm ty lim H V b) r rho'
  | TIf c a b => exists o, decides lm V rho c o /\
      match o with
      | Done true => sem N lm ty lim H V a rho r rho'
      | Done false => sem N lm ty lim H V b rho r rho'
      | Thrown e => r = Raised e /\ rho' = rho
      | Undef _ => False
      end
  | TWhile c a => while_spec N (fun rho => decides lm V rho c) (sem N lm ty lim H V a) rho r rho'
  | TFor col m body => exists t l, ~ In col (H ++ V) /\ creates lm V lim rho m t l /\
      each_spec l (fun v => sem N lm ty lim (col :: H) V (body v)) rho r rho'
  | TLet x s t m body => exists l, ~ In x (H ++ V) /\ ~ In s (H ++ V) /\ x <> s /\ ty x = t /\
      creates lm V lim rho m t l /\ sem N lm ty lim H (x :: V) body (setl rho x l) r rho'
  | _ => exists c, single_cmd lm H V rho s c /\ cmd_wf lim V rho c /\
      rho' = snd (spec_cmd lm ty c rho) /\
      match fst (spec_cmd lm ty c rho) with
      | Done _ => r = Ended
      | Thrown e => r = Raised e
      | Undef _ => False
      end
  end.

(** The vectors of V hold what rho says; besides them those of H are alive,
    and no others. *)
Definition alive (w : world) (lim : Z) (ty : nat -> ety) (H V : list nat) (rho : state) : Prop :=
  repr w lim ty V rho /\ (forall y, In y H -> owning w y /\ ~ In y V) /\
  (forall y, ~ In y (H ++ V) -> unborn w (OD y)).

(** While a program is running its innermost scope has further vectors. *)
Definition reached (w : world) (lim : Z) (ty : nat -> ety) (H V : list nat) (r : res) (rho : state) : Prop :=
  match r with
  | Running => exists H' V', incl V V' /\ alive w lim ty H' V' rho
  | _ => alive w lim ty H V rho
  end.

Definition of_res (r : res) : outcome bool :=
  match r with Ended => Done true | Running => Done false | Raised e => Thrown e end.
