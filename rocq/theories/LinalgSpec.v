(** Specification vocabulary for products of flattened matrices. *)
From Coq Require Import ZArith List.
Import ListNotations.

(** f 0 + ... + f (n - 1) *)
Fixpoint sum_below (n : nat) (f : nat -> Z) : Z := match n with O => 0%Z | S n => (sum_below n f + f n)%Z end.
(** The element in row [i] and column [j] of a matrix with [n] columns stored row by row. *)
Definition at_ij (n : nat) (A : list Z) (i j : nat) : Z := nth (n * i + j) A 0%Z.
