(** Specification vocabulary for points grouped by repeating an operation. *)
From Coq Require Import QArith.
From Verif Require Import Base MatSpec QPoint CutSpec ZoneSpec ApplySpec.

(** Repeating the operation so many times takes one point to the other. *)
Inductive after_turns (b : q3 * q3 * q3) (r : m3) (x : q3) : nat -> q3 -> Prop :=
| after_none y : same_place x y -> after_turns b r x 0 y
| after_one n y z : after_turns b r x n y -> carries b r y z -> after_turns b r x (S n) z.
(** No two points are at the same place. *)
Definition different (points : list q3) : Prop :=
  forall i j p q, nth_error points i = Some p -> nth_error points j = Some q -> same_place p q -> i = j.
