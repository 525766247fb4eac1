(** Model of the vectors perpendicular to the axis of an operation, src/pointgroup.cpp 555-563
    and 664-684. *)
From Coq Require Import ZArith List.
From Verif Require Import Base Array2Model MatSpec CuttingModel.
Import ListNotations.
Local Open Scope outcome_scope.
Local Open Scope Z_scope.

(** src/pointgroup.cpp 555-563: the vectors themselves in place of their positions. *)
Definition dot3 (x y : v3) : Z := v0 x * v0 y + v1 x * v1 y + v2 x * v2 y.
Definition orthogonal_to_axis (a : v3) : list v3 := filter (fun x => dot3 x a =? 0) rot_axes.
(** src/pointgroup.cpp 679: the first of the smallest, starting from [idx]. *)
Definition smallest (norm : list Z) (idx : nat) : outcome nat :=
  foldM (fun idx i => let* x := rd norm i in let* y := rd norm idx in Ok (if x <? y then i else idx)) (seq 0 (List.length norm)) idx.
(** src/pointgroup.cpp 674-682: two of the vectors found. *)
Definition two_of (ortho : list v3) : outcome (v3 * v3) :=
  let norm := map (fun x => dot3 x x) ortho in
  let* idx := smallest norm 0 in
  let* x := rd ortho idx in
  let* norm := wr norm idx 100 in
  let* idx := smallest norm idx in
  let* y := rd ortho idx in
  Ok (x, y).
(** src/pointgroup.cpp 664-684: the axis and the two vectors. *)
Definition axis_and_perpendicular (r : m3) : outcome (v3 * v3 * v3) :=
  let a := axis r in
  if v3_eqb a (V3 0 0 0) then Ok (V3 0 0 0, V3 0 0 0, V3 0 0 0)
  else let* xy := two_of (orthogonal_to_axis a) in let (x, y) := xy : v3 * v3 in Ok (a, x, y).
