(** Model of the index conversions of src/subscript.hpp. *)
From Verif Require Import Base.
Open Scope outcome_scope.

(** Integer division of unsigned integers; by zero it is undefined. *)
Definition udiv (a b : nat) : outcome nat := if b =? 0 then UB else Ok (a / b).

(** src/subscript.hpp 554-557: the row-order branch
    [for (i=0; i<ndim; ++i){ sub[i] = l/stride[i]; l -= sub[i]*stride[i]; }]. *)
Fixpoint l2s_row (l : nat) (stride : list nat) : outcome (list nat) :=
  match stride with
  | [] => Ok []
  | st :: r =>
    let* s := udiv l st in
    let* t := l2s_row (l - s * st) r in
    Ok (s :: t)
  end.

(** src/subscript.hpp 549-552: the column-order branch
    [for (I i=ndim-1; i--; ){...}]; the condition decrements before the body
    runs, so the body sees i = ndim-2, ..., 0 and never ndim-1. *)
Fixpoint l2s_col (l : nat) (stride : list nat) (i : nat) (sub : list nat) : outcome (list nat) :=
  match i with
  | O => Ok sub
  | S j =>
    let* s := udiv l (nth j stride 0) in
    l2s_col (l - s * nth j stride 0) stride j (upd sub j s)
  end.

(** src/subscript.hpp 541-560, [lin2sub] for vectors of strides. *)
Definition lin2sub (l : nat) (stride : list nat) : outcome (list nat) :=
  let ndim := length stride in
  if ndim =? 0 then Ok []
  else if ndim =? 1 then Ok [l]
  else if nth 0 stride 0 <? nth (ndim - 1) stride 0
       then l2s_col l stride (ndim - 1) (repeat 0 ndim)
       else l2s_row l stride.

(** src/subscript.hpp 602-607, [sub2lin] for vectors. *)
Fixpoint sub2lin (sub str : list nat) : nat :=
  match sub, str with
  | s :: sub', t :: str' => s * t + sub2lin sub' str'
  | _, _ => 0
  end.

(** src/subscript.hpp 569-580, [lin2sub] for two dimensions. *)
Definition lin2sub2 (l : nat) (stride : nat * nat) : outcome (nat * nat) :=
  let '(st0, st1) := stride in
  if st0 <? st1 then
    let* s1 := udiv l st1 in
    let* s0 := udiv (l - s1 * st1) st0 in
    Ok (s0, s1)
  else
    let* s0 := udiv l st0 in
    let* s1 := udiv (l - s0 * st0) st1 in
    Ok (s0, s1).

(** src/subscript.hpp 616-619 and 629-632, [sub2lin] for two dimensions. *)
Definition sub2lin2 (sub stride : nat * nat) : nat :=
  fst sub * fst stride + snd sub * snd stride.
