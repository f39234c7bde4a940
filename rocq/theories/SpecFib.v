(** Vocabulary of the Fibonacci example. *)
From Coq Require Import ZArith List.
From Verif Require Import Base Num.
Import ListNotations.
Open Scope Z_scope.

(** The Fibonacci numbers: 1, 1, 2, 3, 5, ... *)
Fixpoint fib (k : nat) : Z :=
  match k with
  | O => 1
  | S k1 => match k1 with O => 1 | S k2 => fib k1 + fib k2 end
  end.

(** n doubles that obey the same recurrence with rounded additions. *)
Definition fib_list (n : nat) (l : list flt) : Prop :=
  length l = n /\
  forall k, (k < n)%nat -> nth k l fzero =
    match k with
    | S (S k2) => fadd (nth (S k2) l fzero) (nth k2 l fzero)
    | _ => i2f 1
    end.
