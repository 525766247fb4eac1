(** Specification of storage orders. *)
From Coq Require Import List Arith.
Import ListNotations.

(** Number of elements of an array. *)
Fixpoint extent (shape : list nat) : nat :=
  match shape with [] => 1 | n :: r => n * extent r end.

(** In a row-ordered array a step in dimension i skips all later dimensions. *)
Fixpoint row_strides (shape : list nat) : list nat :=
  match shape with [] => [] | _ :: r => extent r :: row_strides r end.

(** In a column-ordered array a step in dimension i skips all earlier dimensions. *)
Fixpoint col_strides_from (k : nat) (shape : list nat) : list nat :=
  match shape with [] => [] | n :: r => k :: col_strides_from (k * n) r end.
Definition col_strides (shape : list nat) : list nat := col_strides_from 1 shape.
