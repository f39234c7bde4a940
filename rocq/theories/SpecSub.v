(** Vocabulary of the subsetting properties: what an index argument selects. *)
From Coq Require Import ZArith List Bool Reals.
From Flocq Require Import Core BinarySingleNaN.
From Verif Require Import Base Num StoreModel VecModel SubsetModel FloatBridge Spec SpecExpr.
Import ListNotations.
Open Scope Z_scope.

(** The double f is finite and its integer part is z. *)
Definition int_part (f : flt) (z : Z) : Prop := valid f /\ finite f /\ Ztrunc (fR f) = z.

(** The vector or expression e has the elements l. *)
Definition yields (lm : libm) (w : world) (e : expr) (l : list val) : Prop :=
  esize w e = Z.of_nat (length l) /\
  forall i, (i < length l)%nat -> elem lm e (Z.of_nat i) w = (Done (nth i l (VB false)), w).

(** The (0-based) positions an index argument selects from d positions. *)
Inductive selects (lm : libm) (w : world) (d : Z) : index -> list Z -> Prop :=
| Sel_all : 1 <= d -> selects lm w d (IB true) (map Z.of_nat (seq 0 (Z.to_nat d)))
| Sel_int z : 1 <= z <= d -> selects lm w d (IZ z) [z - 1]
| Sel_dbl f z : int_part f z -> 1 <= z <= d -> selects lm w d (IF f) [z - 1]
| Sel_mask e bs : yields lm w e (map VB bs) -> Z.of_nat (length bs) = d -> In true bs ->
    selects lm w d (IV TBool e) (map Z.of_nat (filter (fun i => nth i bs false) (seq 0 (length bs))))
| Sel_ints e zs : yields lm w e (map VI zs) -> zs <> [] -> (forall z, In z zs -> 1 <= z <= d) ->
    selects lm w d (IV TInt e) (map (fun z => z - 1) zs)
| Sel_dbls e fs zs : yields lm w e (map VD fs) -> Forall2 int_part fs zs -> zs <> [] ->
    (forall z, In z zs -> 1 <= z <= d) ->
    selects lm w d (IV TDouble e) (map (fun z => z - 1) zs).

(** As [selects], with logical indices of any length.  [one]: the other index
    is a single row or column.  Then the logical index may be shorter than the
    dimension and is recycled; otherwise entry number i stands for position
    i mod d, whatever the length. *)
Inductive picks (lm : libm) (w : world) (d : Z) (one : bool) : index -> list Z -> Prop :=
| Pick_selects i ps : selects lm w d i ps -> picks lm w d one i ps
| Pick_recycled e bs ps : one = true -> yields lm w e (map VB bs) -> Z.of_nat (length bs) <= d ->
    ps = map Z.of_nat (filter (fun i => nth (i mod length bs) bs false) (seq 0 (Z.to_nat d))) -> ps <> [] ->
    picks lm w d one (IV TBool e) ps
| Pick_wrapped e bs : one = false -> yields lm w e (map VB bs) -> In true bs ->
    picks lm w d one (IV TBool e)
      (map (fun i => Z.of_nat i mod d) (filter (fun i => nth i bs false) (seq 0 (length bs)))).

(** A position argument means z. *)
Definition pos_is (i : pos) (z : Z) : Prop :=
  match i with PZ k => k = z | PF f => int_part f z end.

(** A single row or column. *)
Definition single (i : index) : bool := match i with IZ _ | IF _ => true | _ => false end.

(** A logical index whose length is compared with the dimension: the other
    index is a single row or column. *)
Definition mask_of_length (lm : libm) (w : world) (i : index) (n : Z) : Prop :=
  match i with IV TBool e => exists bs, yields lm w e (map VB bs) /\ Z.of_nat (length bs) = n | _ => False end.

(** The positions of an r x c selection of a matrix with nr rows, column by
    column. *)
Definition column_major (nr : Z) (rs cs ind : list Z) : Prop :=
  length ind = (length rs * length cs)%nat /\
  forall a b, (a < length cs)%nat -> (b < length rs)%nat ->
    nth (a * length rs + b) ind 0 = nth a cs 0 * nr + nth b rs 0.

(** Positions read from an operation or a subset of ints are computed in double
    precision. *)
Definition exact_int (nr nc : Z) (e : expr) : Prop := own_type e = false -> nr * nc <= 2 ^ 53.

(** Selector pairs for which the library computes the grid.  Two doubles are
    not among them (see c26_two_doubles_refuted); a vector of doubles with a
    double column needs a column without fractional part and a matrix whose
    positions are exact in double precision. *)
Definition good_pair (nr nc : Z) (iL iR : index) : Prop :=
  match iL, iR with
  | IF _, IF _ => False
  | IV TDouble _, IF c => (exists z, fR c = IZR z) /\ nr * nc <= 2 ^ 53
  | IV TInt e, IB _ | IV TInt e, IZ _ | IV TInt e, IF _ => exact_int nr nc e
  | IB _, IV TInt e | IZ _, IV TInt e | IF _, IV TInt e => exact_int nr nc e
  | _, _ => True
  end.

(** An operation: the sum of two vectors, say, as opposed to a vector or a
    subset. *)
Definition operation (e : expr) : bool := match e with EBin _ _ _ | EUn _ _ | ESca _ => true | _ => false end.

(** The subset of e has a shape of its own unless a single row or column is
    selected, or rows are selected by a mask and columns by positions, or all
    of an operation is selected by two TRUEs. *)
Definition shaped_pair (e : expr) (iL iR : index) : bool :=
  negb (single iL) && negb (single iR) &&
  match iL, iR with
  | IV TBool _, IV TInt _ | IV TBool _, IV TDouble _ => false
  | IB _, IB _ => negb (operation e)
  | _, _ => true
  end.

(** [l'] is [l] with the values [us] stored at the positions [ind], one after
    the other: positions not mentioned keep their element, and of several
    values for the same position the last one stays. *)
Definition overwritten (l : list val) (ind : list Z) (us l' : list val) : Prop :=
  length l' = length l /\
  (forall p, (p < length l)%nat -> ~ In (Z.of_nat p) ind -> nth p l' (VB false) = nth p l (VB false)) /\
  (forall k, (k < length ind)%nat ->
     (forall k', (k < k' < length ind)%nat -> nth k' ind 0 <> nth k ind 0) ->
     nth (Z.to_nat (nth k ind 0)) l' (VB false) = nth k us (VB false)).
