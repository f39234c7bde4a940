(** What the distribution functions should return, and threads that use R's
    random number state. *)
From Coq Require Import ZArith List Bool.
From Verif Require Import Base Num StoreModel VecModel DistriModel Spec SpecExpr SpecHist.
Import ListNotations.

(** Element i of l, recycled. *)
Definition lane (l : list flt) (i : nat) : flt := nth (i mod length l) l fzero.

(** The longest of some lists. *)
Definition longest (ls : list (list flt)) : nat := fold_right (fun l n => Nat.max (length l) n) 0%nat ls.

(** A number as the int that R's functions take. *)
Definition as_int (f : flt) : Z := match f2int f with Done z => z | _ => 0%Z end.
Definition has_int (f : flt) : Prop := exists z, f2int f = Done z.

(** The third argument R receives: the gamma functions pass 1/rate. *)
Definition third (k : dist) (b : flt) : flt := match k with DGamma => fdiv fone b | _ => b end.

(** The vectorised density, probability and quantile functions. *)
Definition want_d (R : rmath) (k : dist) (xs las bs ls : list flt) : list flt :=
  map (fun i => rm_d R k (lane xs i) (lane las i) (third k (lane bs i)) (as_int (lane ls i)))
    (seq 0 (longest [xs; las; bs; ls])).
Definition want_pq (f : flt -> flt -> flt -> Z -> Z -> flt) (k : dist) (xs las bs lows ls : list flt) : list flt :=
  map (fun i => f (lane xs i) (lane las i) (third k (lane bs i)) (as_int (lane lows i)) (as_int (lane ls i)))
    (seq 0 (longest [xs; las; bs; lows; ls])).

(** n draws from random number state s: the values and the final state. *)
Fixpoint draws (R : rmath) (k : dist) (a b : flt) (s : Z) (n : nat) : list flt * Z :=
  match n with
  | O => ([], s)
  | S n' => let (v, s1) := rm_r R k s a b in let (l, s2) := draws R k a b s1 n' in (v :: l, s2)
  end.

(** Rounds of lock, fetch, store, unlock. *)
Fixpoint rounds (n : nat) : list ev :=
  match n with O => [] | S k => ELock :: EGet :: EPut :: EUnlock :: rounds k end.

(** The program of a thread that makes calls one after the other: each call has
    a mutex and a number of rounds. *)
Definition calls_prog (calls : list (nat * nat)) : list tev :=
  flat_map (fun c => map (tag (fst c)) (rounds (snd c))) calls.
Definition start_threads (calls : nat -> list (nat * nat)) : tstate :=
  mkTs (fun t => calls_prog (calls t)) (fun _ => None).

(** Thread t has fetched the random number state and not yet stored it. *)
Definition inside (tr : list (nat * tev)) (t : nat) : bool :=
  fold_left (fun b e => if Nat.eqb (fst e) t then
      match snd e with TGet => true | TPut => false | _ => b end else b) tr false.

(** At no time two threads are inside. *)
Definition apart (calls : nat -> list (nat * nat)) : Prop :=
  forall tr s t1 t2, truns (start_threads calls) tr s ->
    inside tr t1 = true -> inside tr t2 = true -> t1 = t2.


(** A call that makes the new vector res is possible in state r: the vectors are
    well-formed, res does not exist yet, and there is memory for it. *)
Definition can_call (r : rworld) (res : nat) : Prop :=
  world_ok (rw r) /\ unborn (rw r) (OD res) /\ unborn (rw r) (OT res) /\ fits (rw r) 1.

(** Vector x is a non-empty argument with the elements l. *)
Definition given (r : rworld) (res x : nat) (l : list flt) : Prop :=
  x <> res /\ vholds (rw r) x (map VD l) /\ l <> [].

(** Afterwards the vectors are well-formed, res holds l and owns its memory, and
    nothing else changed. *)
Definition returned (r r' : rworld) (res : nat) (l : list flt) : Prop :=
  vstep (rw r) (rw r') res /\ world_ok (rw r') /\ owning (rw r') res /\ vholds (rw r') res (map VD l).
