(** Distribution functions (Distri.hpp).  All sixteen functions have one of
    three forms; the uniform ones are cited here, the others are the same text
    with other names.  Distri.hpp is only used together with R. *)
From Coq Require Import ZArith List String Bool.
From Verif Require Import Base Num StoreModel VecModel.
Import ListNotations.
Open Scope Z_scope.

Inductive dist := DUnif | DNorm | DLnorm | DGamma.

(** R's own functions (R::dunif, R::punif, R::qunif, R::runif, ...),
    arbitrary. A random draw depends on the random number state (an abstract
    number) and changes it. (Called in Distri.hpp 11-703.) *)
Record rmath := {
  rm_d : dist -> flt -> flt -> flt -> Z -> flt;
  rm_p : dist -> flt -> flt -> flt -> Z -> Z -> flt;
  rm_q : dist -> flt -> flt -> flt -> Z -> Z -> flt;
  rm_r : dist -> Z -> flt -> flt -> flt * Z }.

(** What a call does with the mutex and with R's random number state:
    m.lock(), GetRNGstate(), PutRNGstate(), m.unlock(). (Distri.hpp 18-22,
    34-39, 60-64.) *)
Inductive ev := ELock | EGet | EPut | EUnlock.

(** Vectors, R's random number state, and what was done so far. (Distri.hpp
    11-703.) *)
Record rworld := mkRw { rw : world; rng : Z; rlog : list ev }.

Definition inr {A} (m : M world A) : M rworld A := fun r =>
  let (o, w) := m (rw r) in (o, mkRw w (rng r) (rlog r)).
Definition act (e : ev) : M rworld unit := fun r => (Done tt, mkRw (rw r) (rng r) (rlog r ++ [e])).
Definition rfor (n : Z) (body : Z -> M rworld unit) : M rworld unit := forN (Z.to_nat n) 0 body.

(** The body of every loop (Distri.hpp 18-22, 34-39, ...): the mutex is a
    local variable of the function, so an exception that leaves the function
    here destroys a locked mutex. *)
Definition locked (body : M rworld unit) : M rworld unit := fun r =>
  match (_ <- act ELock ;; _ <- act EGet ;; body) r with
  | (Done _, r1) => (_ <- act EPut ;; act EUnlock) r1
  | (Thrown _, r1) => (Undef UB_mutex, r1)
  | (Undef u, r1) => (Undef u, r1)
  end.

(** An argument: its length and its element i (operator[] const). [of_var]
    is a vector; [of_list] the std::vector [scale] of the gamma functions.
    (Distri.hpp 11-47, 522-525.) *)
Record darg := mkArg { dlength : rworld -> Z; dget : Z -> M rworld flt }.
Definition of_var (x : nat) : darg :=
  mkArg (fun r => sz (ob (rw r) (OD x))) (fun i => v <- inr (at_rd (OD x) i) ;; ret (v2f v)).
Definition of_list (l : list flt) : darg :=
  mkArg (fun _ => Z.of_nat (List.length l))
    (fun i => if i <? Z.of_nat (List.length l) then ret (nth (Z.to_nat i) l fzero) else undef UB_oob).

(** a[i % a.size()] (Distri.hpp 34-39.) *)
Definition rec_get (a : darg) (i : Z) : M rworld flt :=
  r <- get ;; k <- lift (modz i (dlength a r)) ;; dget a k.

(** max over x.size() and sizes[1..] (Distri.hpp 25-31): sizes[0] is
    skipped. *)
Fixpoint max_from (m : Z) (sizes : list Z) : Z :=
  match sizes with [] => m | s :: t => max_from (if m <? s then s else m) t end.
Definition max_size (xs : Z) (sizes : list Z) : Z :=
  match sizes with [] => xs | _ :: t => max_from xs t end.

(** Vec<BaseType> ret(1); Vec<BaseType> res(max): the constructors for int and
    size_t (Constructors.hpp 105-106), a vector of length one that holds the
    number. *)
Definition res_num (res : nat) (n : Z) : M rworld unit :=
  inr (vec_of_scalar res TDouble (VD (i2f n))).

(** [lock ... res[i] = f ... unlock] and the loop [for (i < n)] over it; the
    right-hand side is evaluated first. (Distri.hpp 33-43.) *)
Definition put_locked (res : nat) (i : Z) (f : M rworld flt) : M rworld unit :=
  locked (v <- f ;; inr (set_at (OD res) i (VD v))).
Definition fill_locked (res : nat) (n : Z) (f : Z -> M rworld flt) : M rworld unit :=
  rfor n (fun i => put_locked res i (f i)).

(** dunif_etr (Distri.hpp 11-47), dnorm_etr, dlnorm_etr, and dgamma_etr
    after the computation of scale. The fourth argument of R's function is an
    int. *)
Definition dens (R : rmath) (k : dist) (res : nat) (x a b lg : darg) : M rworld unit :=
  r <- get ;;
  if (dlength x r =? 1) && (dlength a r =? 1) && (dlength b r =? 1) && (dlength lg r =? 1) then
    res_num res 1 ;;
    put_locked res 0 (
      x0 <- dget x 0 ;; a0 <- dget a 0 ;; b0 <- dget b 0 ;; l0 <- dget lg 0 ;;
      li <- lift (f2int l0) ;; ret (rm_d R k x0 a0 b0 li))
  else
    res_num res (max_size (dlength x r) [dlength a r; dlength b r; dlength lg r]) ;;
    r1 <- get ;;
    fill_locked res (sz (ob (rw r1) (OD res))) (fun i =>
      x0 <- rec_get x i ;; a0 <- rec_get a i ;; b0 <- rec_get b i ;; l0 <- rec_get lg i ;;
      li <- lift (f2int l0) ;; ret (rm_d R k x0 a0 b0 li)).

(** punif_etr, qunif_etr (Distri.hpp 89-173) and the like: the length of
    [lower] is not tested. *)
Definition prob (f : flt -> flt -> flt -> Z -> Z -> flt) (res : nat) (x a b lower lg : darg) : M rworld unit :=
  r <- get ;;
  if (dlength x r =? 1) && (dlength a r =? 1) && (dlength b r =? 1) && (dlength lg r =? 1) then
    res_num res 1 ;;
    put_locked res 0 (
      x0 <- dget x 0 ;; a0 <- dget a 0 ;; b0 <- dget b 0 ;; w0 <- dget lower 0 ;; l0 <- dget lg 0 ;;
      wi <- lift (f2int w0) ;; li <- lift (f2int l0) ;; ret (f x0 a0 b0 wi li))
  else
    res_num res (max_size (dlength x r) [dlength a r; dlength b r; dlength lower r; dlength lg r]) ;;
    r1 <- get ;;
    fill_locked res (sz (ob (rw r1) (OD res))) (fun i =>
      x0 <- rec_get x i ;; a0 <- rec_get a i ;; b0 <- rec_get b i ;; w0 <- rec_get lower i ;; l0 <- rec_get lg i ;;
      wi <- lift (f2int w0) ;; li <- lift (f2int l0) ;; ret (f x0 a0 b0 wi li)).

(** One draw. (Distri.hpp 60-64.) *)
Definition draw (R : rmath) (k : dist) (a b : darg) (i : Z) : M rworld flt :=
  a0 <- rec_get a i ;; b0 <- rec_get b i ;;
  (fun r => let (v, s) := rm_r R k (rng r) a0 b0 in (Done v, mkRw (rw r) s (rlog r))).

(** runif_etr (Distri.hpp 49-87) makes a vector of the requested length with
    SI; rnorm_etr (218-257), rlnorm_etr and rgamma_etr use the constructor for
    size_t. *)
Definition rand (R : rmath) (k : dist) (res : nat) (x a b : darg) : M rworld unit :=
  r <- get ;;
  if (dlength x r =? 1) && (dlength a r =? 1) && (dlength b r =? 1) then
    x0 <- dget x 0 ;;
    match k with
    | DUnif =>
        n <- lift (f2int x0) ;;
        inr (vec_sized res TDouble (wrap64 n)) ;;
        size <- lift (f2size x0) ;;
        fill_locked res size (draw R k a b)
    | _ =>
        size <- lift (f2size x0) ;;
        res_num res size ;;
        fill_locked res size (draw R k a b)
    end
  else
    res_num res (max_size (dlength x r) [dlength a r; dlength b r]) ;;
    r1 <- get ;;
    fill_locked res (sz (ob (rw r1) (OD res))) (draw R k a b).

(** scale[i] = 1.0 / rate[i] (Distri.hpp 522-525 and the like). *)
Fixpoint scale_of (rate : nat) (i : Z) (n : nat) : M rworld (list flt) :=
  match n with
  | O => ret []
  | S k => v <- dget (of_var rate) i ;; l <- scale_of rate (i + 1) k ;; ret (fdiv fone v :: l)
  end.
Definition with_scale (rate : nat) (f : darg -> M rworld unit) : M rworld unit :=
  r <- get ;; l <- scale_of rate 0 (Z.to_nat (dlength (of_var rate) r)) ;; f (of_list l).

(** The functions a user calls, for vectors x, a, b, lower, lg; the result
    is vector res. (Distri.hpp 11-703.) *)
Definition d_etr (R : rmath) (k : dist) (res x a b lg : nat) : M rworld unit :=
  match k with
  | DGamma => with_scale b (fun s => dens R k res (of_var x) (of_var a) s (of_var lg))
  | _ => dens R k res (of_var x) (of_var a) (of_var b) (of_var lg)
  end.
Definition p_etr (R : rmath) (k : dist) (res x a b lower lg : nat) : M rworld unit :=
  match k with
  | DGamma => with_scale b (fun s => prob (rm_p R k) res (of_var x) (of_var a) s (of_var lower) (of_var lg))
  | _ => prob (rm_p R k) res (of_var x) (of_var a) (of_var b) (of_var lower) (of_var lg)
  end.
Definition q_etr (R : rmath) (k : dist) (res x a b lower lg : nat) : M rworld unit :=
  match k with
  | DGamma => with_scale b (fun s => prob (rm_q R k) res (of_var x) (of_var a) s (of_var lower) (of_var lg))
  | _ => prob (rm_q R k) res (of_var x) (of_var a) (of_var b) (of_var lower) (of_var lg)
  end.
Definition r_etr (R : rmath) (k : dist) (res x a b : nat) : M rworld unit :=
  match k with
  | DGamma => with_scale b (fun s => rand R k res (of_var x) (of_var a) s)
  | _ => rand R k res (of_var x) (of_var a) (of_var b)
  end.

(** Several threads that call these functions. A call does a number of
    rounds; each round locks and unlocks the mutex of that call (a local
    variable of the function, so every call has its own). (Distri.hpp 15, 52:
    std::mutex m as a local variable.) *)
Inductive tev := TLock (m : nat) | TGet | TPut | TUnlock (m : nat).

Definition tag (m : nat) (e : ev) : tev :=
  match e with ELock => TLock m | EGet => TGet | EPut => TPut | EUnlock => TUnlock m end.

(** What each thread still has to do, and which thread holds which mutex.
    (Distri.hpp 18-22, 34-39.) *)
Record tstate := mkTs { todo : nat -> list tev; held : nat -> option nat }.

Definition fset {A} (f : nat -> A) (k : nat) (v : A) : nat -> A := fun j => if Nat.eqb j k then v else f j.

(** Thread t takes its next step: lock waits until the mutex is free.
    (Distri.hpp 18-22, 34-39.) *)
Inductive tstep : tstate -> nat -> tev -> tstate -> Prop :=
  | ts_lock t m p s : todo s t = TLock m :: p -> held s m = None ->
      tstep s t (TLock m) (mkTs (fset (todo s) t p) (fset (held s) m (Some t)))
  | ts_unlock t m p s : todo s t = TUnlock m :: p -> held s m = Some t ->
      tstep s t (TUnlock m) (mkTs (fset (todo s) t p) (fset (held s) m None))
  | ts_get t p s : todo s t = TGet :: p -> tstep s t TGet (mkTs (fset (todo s) t p) (held s))
  | ts_put t p s : todo s t = TPut :: p -> tstep s t TPut (mkTs (fset (todo s) t p) (held s)).

(** Runs, with the steps taken (latest last). (Distri.hpp; auxiliary:
    executions of tstep.) *)
Inductive truns : tstate -> list (nat * tev) -> tstate -> Prop :=
  | tr_nil s : truns s [] s
  | tr_snoc s tr s1 t e s2 : truns s tr s1 -> tstep s1 t e s2 -> truns s (tr ++ [(t, e)]) s2.
