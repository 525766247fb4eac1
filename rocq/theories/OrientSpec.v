(** Rotations and the standard orientation. *)
From Coq Require Import Reals.
From Verif Require Import AngleModel LatticeModel LatticeSpec.
Local Open Scope R_scope.

Definition rotation (r : mat) : Prop :=
  dot (va r) (va r) = 1 /\ dot (vb r) (vb r) = 1 /\ dot (vc r) (vc r) = 1 /\
  dot (va r) (vb r) = 0 /\ dot (vb r) (vc r) = 0 /\ dot (vc r) (va r) = 0 /\ triple r = 1.
(** The first vector along x, the second in the half of the xy plane with positive y. *)
Definition standard (r m : mat) : Prop :=
  let a := at_ r (va m) in let b := at_ r (vb m) in
  0 < rx a /\ ry a = 0 /\ rz a = 0 /\ 0 < ry b /\ rz b = 0.
(** x is along y. *)
Definition along (x y : r3) : Prop := exists k, 0 < k /\ rx x = k * rx y /\ ry x = k * ry y /\ rz x = k * rz y.
(** The second vector of m is on the same side of the first one as that of o. *)
Definition same_side (m o : mat) : Prop := exists p q, 0 < q /\
  rx (vb m) = p * rx (va o) + q * rx (vb o) /\ ry (vb m) = p * ry (va o) + q * ry (vb o) /\ rz (vb m) = p * rz (va o) + q * rz (vb o).
