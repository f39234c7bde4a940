(** Meaning of the programs of LangModel on lists with shapes: the
    specification of the refinement theorem for programs with matrices, at(),
    run-time scalars and try/catch. *)
From Coq Require Import ZArith List String Bool Reals Floats.SpecFloat.
From Verif Require Import Base Num StoreModel VecModel SubsetModel AllocModel ProgModel LangModel FloatBridge
  Spec SpecExpr SpecHist SpecProg SpecSub SpecAlloc SpecCons SpecStmt.
Import ListNotations.
Open Scope Z_scope.
Local Notation length := List.length (only parsing).

(** The elements of the vectors and their shapes. *)
Definition shapes := nat -> dims.
Definition mstate := (state * shapes)%type.
Definition setd (sh : shapes) (x : nat) (d : dims) : shapes := fun y => if Nat.eqb y x then d else sh y.

Definition msg_below : exn := Ass "Error: out of boundaries --> value below 1".
Definition msg_nomat : exn := Ass "Input is not a matrix!".

(** The (0-based) rows or columns an index of a matrix selects from d. *)
Inductive selected (lm : libm) (rho : state) (d : Z) : index -> list Z -> Prop :=
| Sd_all : 1 <= d -> selected lm rho d (IB true) (map Z.of_nat (seq 0 (Z.to_nat d)))
| Sd_int z : 1 <= z <= d -> selected lm rho d (IZ z) [z - 1]
| Sd_dbl f z : int_part f z -> 1 <= z <= d -> selected lm rho d (IF f) [z - 1]
| Sd_mask e bs : wf_expr rho e -> denotes lm rho e (map VB bs) -> Z.of_nat (length bs) = d -> In true bs ->
    selected lm rho d (IV TBool e) (map Z.of_nat (filter (fun i => nth i bs false) (seq 0 (length bs))))
| Sd_ints e zs : wf_expr rho e -> denotes lm rho e (map VI zs) -> zs <> [] -> (forall z, In z zs -> 1 <= z <= d) ->
    selected lm rho d (IV TInt e) (map (fun z => z - 1) zs)
| Sd_dbls e fs zs : wf_expr rho e -> denotes lm rho e (map VD fs) -> Forall2 int_part fs zs -> zs <> [] ->
    (forall z, In z zs -> 1 <= z <= d) ->
    selected lm rho d (IV TDouble e) (map (fun z => z - 1) zs).

(** The positions of the selected rows and columns of the matrix e, column by
    column, and the shape of the selection. *)
Definition cells (lm : libm) (rho : state) (sh : shapes) (e : expr) (i j : index) (ps : list Z) (d : dims) : Prop :=
  exists nr nc rs cs, xdims sh e = Some (nr, nc) /\ xsize rho e = nr * nc /\
    1 <= nr < 2 ^ 31 /\ 1 <= nc < 2 ^ 31 /\
    selected lm rho nr i rs /\ selected lm rho nc j cs /\ good_pair nr nc i j /\
    Z.of_nat (length rs) < 2 ^ 31 /\ Z.of_nat (length cs) < 2 ^ 31 /\
    ps = flat_map (fun c => map (fun r => c * nr + r) rs) cs /\
    d = if shaped_pair e i j then Some (Z.of_nat (length rs), Z.of_nat (length cs)) else None.

Definition to_mp (d : dims) : matpar := match d with Some (r, c) => mkMP true r c | None => mp_none end.

(** Element (r, c), counted from 1, of a matrix with nr rows and n elements:
    column-major; only the position in memory is checked. *)
Definition cell_at (nr n : Z) (r c : Z) (k : Z) (inside : bool) : Prop :=
  1 <= r < 2 ^ 31 /\ 1 <= c < 2 ^ 31 /\ 0 <= nr < 2 ^ 31 /\ k = (c - 1) * nr + (r - 1) /\ inside = (k <? n).

(** The expression with fixed positions that a written expression stands for,
    or the exception it throws. *)
Fixpoint lmeans (lm : libm) (V : list nat) (rho : state) (sh : shapes) (e : lexpr) (o : outcome expr) : Prop :=
  match e with
  | LVar x => In x V /\ o = Done (EVar x)
  | LLit v => o = Done (ESca v)
  | LBin op l r => exists a b, lmeans lm V rho sh l a /\ lmeans lm V rho sh r b /\
      o = (l' <-o a ;; r' <-o b ;; Done (EBin op l' r'))
  | LUn op e => exists a, lmeans lm V rho sh e a /\ o = (e' <-o a ;; Done (EUn op e'))
  | LSel e i => exists a b, lmeans lm V rho sh e a /\ lmeans_index lm V rho sh i b /\
      match a, b with
      | Done e1, Done i1 => exists ps, wf_expr rho e1 /\ picks lm rho (xsize rho e1) i1 ps /\ o = Done (ESub e1 ps mp_none)
      | Thrown x, _ | Done _, Thrown x => o = Thrown x
      | _, _ => False
      end
  | LSel2 e i j => exists a b c, lmeans lm V rho sh e a /\ lmeans_index lm V rho sh i b /\ lmeans_index lm V rho sh j c /\
      match a, b, c with
      | Done e1, Done i1, Done j1 => exists ps d, wf_expr rho e1 /\ cells lm rho sh e1 i1 j1 ps d /\
          o = Done (ESub e1 ps (to_mp d))
      | Thrown x, _, _ | Done _, Thrown x, _ | Done _, Done _, Thrown x => o = Thrown x
      | _, _, _ => False
      end
  | LAt x i => exists z, In x V /\ pos_is i z /\ - 2 ^ 31 < z < 2 ^ 31 /\ rho x <> [] /\
      o = if z <? 1 then Thrown msg_below
          else if Z.of_nat (length (rho x)) <? z then Thrown msg_oob
          else Done (ESca (nth (Z.to_nat (z - 1)) (rho x) (VB false)))
  | LAt2 x i j => In x V /\ rho x <> [] /\
      match sh x with
      | None => o = Thrown msg_nomat
      | Some (nr, nc) => exists r c k inside, pos_is i r /\ pos_is j c /\
          cell_at nr (Z.of_nat (length (rho x))) r c k inside /\
          o = if inside then Done (ESca (nth (Z.to_nat k) (rho x) (VB false))) else Thrown msg_oob
      end
  | LAtOf e i => exists a z, lmeans lm V rho sh e a /\ pos_is i z /\ 0 <= z < 2 ^ 31 /\
      match a with               (* counted from 0: c28_at_value_refuted *)
      | Done e1 => wf_expr rho e1 /\ z < xsize rho e1 /\ o = (v <-o xval lm rho e1 z ;; Done (ESca (read e1 v)))
      | Thrown x => o = Thrown x
      | Undef _ => False
      end
  | LAt2Of e i j => exists a, lmeans lm V rho sh e a /\
      match a with
      | Done e1 => wf_expr rho e1 /\
          match xdims sh e1 with
          | None => o = Thrown msg_nomat
          | Some (nr, nc) => exists r c k inside, pos_is i r /\ pos_is j c /\
              cell_at nr (xsize rho e1) r c k inside /\
              o = if inside then v <-o xval lm rho e1 k ;; Done (ESca (read e1 v)) else Thrown msg_oob
          end
      | Thrown x => o = Thrown x
      | Undef _ => False
      end
  | LLen e => exists a, lmeans lm V rho sh e a /\
      (forall e1, a = Done e1 -> wf_expr rho e1 /\ xsize rho e1 < 2 ^ 31) /\
      o = (e1 <-o a ;; Done (ESca (VI (xsize rho e1))))
  end
with lmeans_index (lm : libm) (V : list nat) (rho : state) (sh : shapes) (i : lindex) (o : outcome index) : Prop :=
  match i with
  | LXB b => o = Done (IB b)
  | LXZ z => o = Done (IZ z)
  | LXF f => o = Done (IF f)
  | LXV t e => exists a, lmeans lm V rho sh e a /\ o = (e1 <-o a ;; Done (IV t e1))
  end.

(** The elements of an argument; a scalar has one. *)
Definition larg_is (lm : libm) (V : list nat) (rho : state) (sh : shapes) (a : larg) (l : list val) : Prop :=
  match a with
  | LS v => l = [v]
  | LV t e => exists e', lmeans lm V rho sh e (Done e') /\ wf_expr rho e' /\ denotes lm rho e' l
  end.
Definition has_type (a : larg) (l : list val) : Prop := forall u, In u l -> ty_of u = larg_ty a.
(** A positive length given by the first element of an argument. *)
Definition counts (lm : libm) (V : list nat) (rho : state) (sh : shapes) (a : larg) (n : Z) : Prop :=
  exists us, larg_is lm V rho sh a us /\ us <> [] /\ has_type a us /\ size_is (hd (VB false) us) n /\ 1 <= n.

(** The r-value made by a call: elements l of type t, shape d. *)
Definition lcreates (lm : libm) (V : list nat) (lim : Z) (rho : state) (sh : shapes) (m : lmaker) (t : ety) (l : list val) (d : dims) : Prop :=
  2 * Z.of_nat (length l) <= lim /\
  match m with
  | LMVector vt a => exists v n, larg_is lm V rho sh a [v] /\ size_is v n /\ 1 <= n /\ t = TDouble /\
      l = repeat (VD fzero) (Z.to_nat n) /\ d = None
  | LMColon a b => exists us vs p q, larg_is lm V rho sh a us /\ larg_is lm V rho sh b vs /\
      us <> [] /\ vs <> [] /\ has_type a us /\ has_type b vs /\
      int_val (hd (VB false) us) p /\ int_val (hd (VB false) vs) q /\
      - 2 ^ 30 < p < 2 ^ 30 /\ - 2 ^ 30 < q < 2 ^ 30 /\ t = common (larg_ty a) (larg_ty b) /\ d = None /\
      match t with
      | TBool => False
      | TInt => l = map VI (count_from p q)
      | TDouble => 0 < p /\ 0 < q /\ l = map (fun z => VD (i2f z)) (count_from p q)
      end
  | LMRep i n => exists us k, larg_is lm V rho sh i us /\ us <> [] /\ has_type i us /\ counts lm V rho sh n k /\
      t = larg_ty i /\ l = List.concat (repeat us (Z.to_nat k)) /\ d = None
  | LMCoca args => exists ls, Forall2 (larg_is lm V rho sh) args ls /\ Forall2 has_type args ls /\
      (exists a, In a args /\ larg_ty a = t) /\ (forall a, In a args -> (level (larg_ty a) <= level t)%nat) /\
      Forall2 (fun v u => cast t v = Done u) (List.concat ls) l /\ l <> [] /\ Z.of_nat (length l) < 2 ^ 31 /\ d = None
  | LMMatrix i a b => exists r c, counts lm V rho sh a r /\ counts lm V rho sh b c /\
      t = larg_ty i /\ d = Some (r, c) /\ Z.of_nat (length l) = r * c /\
      match i with
      | LS v => l = repeat v (Z.to_nat (r * c))
      | LV _ _ => larg_is lm V rho sh i l /\ has_type i l
      end
  | LMTest inf e => exists e' us bs, lmeans lm V rho sh e (Done e') /\ wf_expr rho e' /\ denotes lm rho e' us /\
      us <> [] /\ Forall int32 us /\ t = TBool /\ d = None /\ l = map VB bs /\
      Forall2 (fun u b => b = true <-> if inf then exists s, u = VD (S754_infinity s) else u = VD S754_nan) us bs
  | LMDim a =>
      match a with
      | LS _ => False
      | LV _ e => exists e' r c, lmeans lm V rho sh e (Done e') /\ xdims sh e' = Some (r, c) /\
          0 <= r < 2 ^ 31 /\ 0 <= c < 2 ^ 31 /\ t = TInt /\ l = [VI r; VI c] /\ d = None
      end
  end.

(** The value of a condition or of a scalar. *)
Definition lvalue (lm : libm) (V : list nat) (s : mstate) (e : lexpr) (o : outcome val) : Prop :=
  exists a, lmeans lm V (fst s) (snd s) e a /\
    (forall e', a = Done e' -> wf_expr (fst s) e' /\ 1 <= xsize (fst s) e') /\
    o = (e' <-o a ;; v <-o xval lm (fst s) e' 0 ;; Done (read e' v)).

(** The end of a statement that is one library call. *)
Definition ends_as {A} (o : outcome A) (r : res) : Prop :=
  match o with Done _ => r = Ended | Thrown (Ass m) => r = Raised (Ass m) | _ => False end.
(** An assignment: elements as in SpecProg.spec_cmd; x = e gives x the shape of
    the value when that is a matrix (c16_stale_shape_refuted). *)
Definition shapes_after (sh : shapes) (c : cmd) (o : outcome unit) : shapes :=
  match c, o with
  | CAssign x e, Done _ => setd sh x (received (xdims sh e) (sh x))
  | _, _ => sh
  end.
Definition does (lm : libm) (ty : nat -> ety) (lim : Z) (V : list nat) (c : cmd) (s : mstate) (r : res) (s' : mstate) : Prop :=
  cmd_wf lim V (fst s) c /\ ends_as (fst (spec_cmd lm ty c (fst s))) r /\
  s' = (snd (spec_cmd lm ty c (fst s)), shapes_after (snd s) c (fst (spec_cmd lm ty c (fst s)))).

(** An exception while the operands are built ends the statement. *)
Definition given {A} (o : outcome A) (k : A -> mstate -> res -> mstate -> Prop) (s : mstate) (r : res) (s' : mstate) : Prop :=
  match o with
  | Done a => k a s r s'
  | Thrown (Ass m) => r = Raised (Ass m) /\ s' = s
  | _ => False
  end.

(** With at most N rounds of every while loop, statement p leads from s to s'
    and ends as r says.  [V] are the vectors in scope, [H] those a loop runs
    over; new vectors have new names.  resize has no meaning here: what it
    leaves in the vector depends on the capacity (c05, c08). *)
Fixpoint lsem (N : nat) (lm : libm) (ty : nat -> ety) (lim : Z) (H V : list nat) (p : lstmt)
    (s : mstate) (r : res) (s' : mstate) : Prop :=
  match p with
  | LSkip => r = Ended /\ s' = s
  | LAssign x e => exists a, lmeans lm V (fst s) (snd s) e a /\
      given a (fun e' => does lm ty lim V (CAssign x e')) s r s'
  | LScalar x v => does lm ty lim V (CScalar x v) s r s'
  | LSub t x i same e => ~ In t H /\ In x V /\ exists a b, lmeans_index lm V (fst s) (snd s) i a /\ lmeans lm V (fst s) (snd s) e b /\
      given a (fun i' s r s' => exists ps, picks lm (fst s) (Z.of_nat (length (fst s x))) i' ps /\
        given b (fun e' => does lm ty lim V (CSub t x ps same e')) s r s') s r s'
  | LSubScalar x i v => In x V /\ exists a, lmeans_index lm V (fst s) (snd s) i a /\
      given a (fun i' s r s' => exists ps, picks lm (fst s) (Z.of_nat (length (fst s x))) i' ps /\
        does lm ty lim V (CSubScalar x ps v) s r s') s r s'
  | LSub2 t x i j same e => ~ In t H /\ In x V /\ exists a b c, lmeans_index lm V (fst s) (snd s) i a /\
      lmeans_index lm V (fst s) (snd s) j b /\ lmeans lm V (fst s) (snd s) e c /\
      given a (fun i' => given b (fun j' s r s' => exists ps d, cells lm (fst s) (snd s) (EVar x) i' j' ps d /\
        given c (fun e' => does lm ty lim V (CSub t x ps same e')) s r s')) s r s'
  | LSub2Scalar x i j v => In x V /\ exists a b, lmeans_index lm V (fst s) (snd s) i a /\
      lmeans_index lm V (fst s) (snd s) j b /\
      given a (fun i' => given b (fun j' s r s' => exists ps d, cells lm (fst s) (snd s) (EVar x) i' j' ps d /\
        does lm ty lim V (CSubScalar x ps v) s r s')) s r s'
  | LElem x k v => 0 <= k < 2 ^ 64 /\ does lm ty lim V (CElem x k v) s r s'
  | LAtSet x i v => exists z, pos_is i z /\ - 2 ^ 31 < z < 2 ^ 31 /\ fst s x <> [] /\ In x V /\
      if (1 <=? z) && (z <=? Z.of_nat (length (fst s x))) then does lm ty lim V (CElem x (z - 1) v) s r s'
      else (exists v', cast (ty x) v = Done v') /\ r = Raised (if z <? 1 then msg_below else msg_oob) /\ s' = s
  | LAt2Set x i j v => In x V /\ fst s x <> [] /\
      match snd s x with
      | None => (exists v', cast (ty x) v = Done v') /\ r = Raised msg_nomat /\ s' = s
      | Some (nr, nc) => exists a b k inside, pos_is i a /\ pos_is j b /\
          cell_at nr (Z.of_nat (length (fst s x))) a b k inside /\
          if inside then does lm ty lim V (CElem x k v) s r s'
          else (exists v', cast (ty x) v = Done v') /\ r = Raised msg_oob /\ s' = s
      end
  | LFill x v => In x V /\ exists v', cast (ty x) v = Done v' /\ r = Ended /\
      s' = (setl (fst s) x (repeat v' (length (fst s x))), snd s)
  | LResize _ _ => False
  | LSeq a b => exists r1 s1, lsem N lm ty lim H V a s r1 s1 /\ after r1 s1 (lsem N lm ty lim H V b) r s'
  | LIf c a b => exists o, lvalue lm V s c o /\
      given o (fun v => if truth v then lsem N lm ty lim H V a else lsem N lm ty lim H V b) s r s'
  | LWhile c a => while_spec N (fun s o => exists v, lvalue lm V s c v /\ (forall e, v = Thrown e -> e <> BadAlloc) /\
      o = (x <-o v ;; Done (truth x))) (lsem N lm ty lim H V a) s r s'
  | LScal e body => exists o, lvalue lm V s e o /\ given o (fun v => lsem N lm ty lim H V (body v)) s r s'
  | LFor col m body => exists t l d, ~ In col (H ++ V) /\ lcreates lm V lim (fst s) (snd s) m t l d /\
      each_spec l (fun v => lsem N lm ty lim (col :: H) V (body v)) s r s'
  | LLet x t ety m body => exists l d, ~ In x (H ++ V) /\ ~ In t (H ++ V) /\ x <> t /\ ty x = ety /\
      lcreates lm V lim (fst s) (snd s) m ety l d /\
      lsem N lm ty lim H (x :: V) body (setl (fst s) x l, setd (snd s) x d) r s'
  | LDecl x t e body => ~ In x (H ++ V) /\ ty x = t /\ exists a, lmeans lm V (fst s) (snd s) e a /\
      given a (fun e' s r s' => wf_expr (fst s) e' /\ 1 <= xsize (fst s) e' <= max_len /\ 2 * xsize (fst s) e' <= lim /\
        given (value lm (fst s) t e') (fun us s =>
          lsem N lm ty lim H (x :: V) body (setl (fst s) x us, setd (snd s) x (xdims (snd s) e'))) s r s') s r s'
  | LSized x t n body => ~ In x (H ++ V) /\ ty x = t /\ 0 <= n < 2 ^ 64 /\ 2 * n <= lim /\ n <= max_len /\
      if n =? 0 then r = Raised msg_zero /\ s' = s
      else lsem N lm ty lim H (x :: V) body (setl (fst s) x (repeat (zero t) (Z.to_nat n)), setd (snd s) x None) r s'
  | LTry a b => exists r1 s1, lsem N lm ty lim H V a s r1 s1 /\
      match r1 with
      | Raised (Ass _) => lsem N lm ty lim H V b s1 r s'
      | _ => r = r1 /\ s' = s1
      end
  end.

(** The vectors of V hold what the state says and have its shapes. *)
Definition lalive (w : world) (lim : Z) (ty : nat -> ety) (H V : list nat) (s : mstate) : Prop :=
  alive w lim ty H V (fst s) /\ forall x, In x V -> dims_in w x = snd s x.
Definition lreached (w : world) (lim : Z) (ty : nat -> ety) (H V : list nat) (r : res) (s : mstate) : Prop :=
  match r with
  | Running => exists H' V', incl V V' /\ lalive w lim ty H' V' s
  | _ => lalive w lim ty H V s
  end.
