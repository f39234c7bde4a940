(** Vocabulary of the property statements about storage and vectors.  Nothing
    here is used by the model. *)
From Coq Require Import ZArith List Bool.
From Verif Require Import Base Num StoreModel VecModel.
Import ListNotations.
Open Scope Z_scope.

(** What a user observes of a storage object: its size, and the value every
    bounds-checked element access returns (reading changes nothing). *)
Definition holds (w : world) (o : oid) (l : list val) : Prop :=
  sz (ob w o) = Z.of_nat (length l) /\
  forall i, (i < length l)%nat -> at_rd o (Z.of_nat i) w = (Done (nth i l (VB false)), w).

(** Vector number x holds the elements l. *)
Definition vholds (w : world) (x : nat) (l : list val) : Prop := holds w (OD x) l.

(** The value of new elements: false, 0, +0.0. *)
Definition zero (t : ety) : val :=
  match t with TBool => VB false | TInt => VI 0 | TDouble => VD (SpecFloat.S754_zero false) end.

(** The owner a storage object of a given class expects of its memory. *)
Definition owner_of (s : store) : owner :=
  match kd s with
  | KBuffer => OwnCpp
  | KBorrow => OwnExt
  | KBorrowSEXP => if todel s then OwnCpp else OwnR
  end.

(** The block a storage object is responsible for freeing. *)
Definition owns (s : store) (a : nat) : Prop :=
  ptr s = Some a /\ owner_of s = OwnCpp.

(** A storage object is sound: it has no memory and no elements, or it points
    to a live block of the right owner with room for its size and capacity.
    (The capacity may be smaller than the size: see ctor_steal.) *)
Definition store_shape (h : heap) (s : store) : Prop :=
  0 <= sz s /\ 0 <= cap s /\
  match ptr s with
  | None => sz s = 0 /\ cap s = 0
  | Some a =>
      alloc s = true /\
      exists cs, hblk h a = Live (owner_of s) cs /\
                 sz s <= Z.of_nat (length cs) /\ cap s <= Z.of_nat (length cs)
  end.

(** Elements [0, n) of the object's block are initialised. *)
Definition init_upto (h : heap) (s : store) (n : Z) : Prop :=
  forall a own cs, ptr s = Some a -> hblk h a = Live own cs ->
  forall i, 0 <= i < n -> exists v, nth (Z.to_nat i) cs None = Some v.

(** All elements up to the size are initialised; borrowed memory is
    initialised up to its capacity. *)
Definition inited (w : world) (o : oid) : Prop :=
  let s := ob w o in
  init_upto (hp w) s (sz s) /\
  (kd s <> KBuffer -> sz s <= cap s /\ init_upto (hp w) s (cap s)).

(** All objects sound, no block owned twice, addresses above [hnext] unused,
    block lengths below the address space and, for memory from new[], within
    what the allocator serves. *)
Record world_shape (w : world) : Prop := {
  ws_fresh : forall a, (hnext (hp w) <= a)%nat -> hblk (hp w) a = Unused;
  ws_store : forall o, store_shape (hp w) (ob w o);
  ws_sep : forall o1 o2 a, owns (ob w o1) a -> owns (ob w o2) a -> o1 = o2;
  ws_lim : 0 <= hlim (hp w) <= 2 ^ 60;
  ws_len : forall a own cs, hblk (hp w) a = Live own cs ->
    Z.of_nat (length cs) <= 2 ^ 60 /\
    (own = OwnCpp -> Z.of_nat (length cs) <= hlim (hp w)) }.

Definition world_ok (w : world) : Prop := world_shape w /\ forall o, inited w o.

(** Everything an object's observer could see is the same in both worlds. *)
Definition same_obj (w w' : world) (o : oid) : Prop :=
  ob w' o = ob w o /\
  forall a, ptr (ob w o) = Some a -> hblk (hp w') a = hblk (hp w) a.

(** Every block of this library is owned by some object: nothing leaked. *)
Definition no_leak (w : world) : Prop :=
  forall a cs, hblk (hp w) a = Live OwnCpp cs -> exists o, owns (ob w o) a.

(** An empty program state. *)
Definition empty_world (lim : Z) : world :=
  mkWorld (mkHeap 0 (fun _ => Unused) lim) (fun _ => store_default KBuffer TDouble).

(** The step from w to w' concerned only object o: the invariant holds again,
    all other objects and all foreign memory are as before, and memory of this
    library that o does not own now was there before and not owned by o. *)
Record step1 (w w' : world) (o : oid) : Prop := {
  s1_shape : world_shape w';
  s1_lim : hlim (hp w') = hlim (hp w);
  s1_other : forall o', o' <> o -> same_obj w w' o';
  s1_leak : forall b cs, hblk (hp w') b = Live OwnCpp cs ->
      owns (ob w' o) b \/ (hblk (hp w) b = Live OwnCpp cs /\ ~ owns (ob w o) b);
  s1_ext : forall b own cs, own <> OwnCpp -> hblk (hp w) b = Live own cs ->
      hblk (hp w') b = Live own cs }.
