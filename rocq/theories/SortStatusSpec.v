(** A sorting status as four flags and a count below 2^28. *)
From Verif Require Import Base.
From Coq Require Import NArith.
Local Open Scope N_scope.

Record status := Status { f_sorted : bool; f_locked : bool; f_queued : bool; f_claimed : bool; n_visits : N }.

(** The content of a status word: bits 0 to 3 and the rest. *)
Definition content (w : N) : status :=
  Status (N.testbit w 0) (N.testbit w 1) (N.testbit w 2) (N.testbit w 3) (w / 16).

Definition most_visits : N := 2 ^ 28 - 1.
