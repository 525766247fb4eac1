(** Bases of three vectors, their lengths and angles, and dual bases. *)
From Coq Require Import Reals.
From Verif Require Import AngleModel LatticeModel.
Local Open Scope R_scope.

Definition dot (x y : r3) : R := rx x * rx y + ry x * ry y + rz x * rz y.
Definition cross (x y : r3) : r3 :=
  R3 (ry x * rz y - rz x * ry y) (rz x * rx y - rx x * rz y) (rx x * ry y - ry x * rx y).
(** The columns of a matrix are the basis vectors. *)
Definition va (m : mat) : r3 := R3 (e00 m) (e10 m) (e20 m).
Definition vb (m : mat) : r3 := R3 (e01 m) (e11 m) (e21 m).
Definition vc (m : mat) : r3 := R3 (e02 m) (e12 m) (e22 m).
(** The volume of the cell, positive for right handed bases. *)
Definition triple (m : mat) : R := dot (va m) (cross (vb m) (vc m)).
(** Lengths and cosines of the angles between b and c, c and a, a and b. *)
Definition has_parameters (m : mat) (l c : r3) : Prop :=
  0 < rx l /\ 0 < ry l /\ 0 < rz l /\
  dot (va m) (va m) = rx l * rx l /\ dot (vb m) (vb m) = ry l * ry l /\ dot (vc m) (vc m) = rz l * rz l /\
  dot (vb m) (vc m) = ry l * rz l * rx c /\ dot (vc m) (va m) = rz l * rx l * ry c /\ dot (va m) (vb m) = rx l * ry l * rz c.
(** The sines that belong to cosines of angles between 0 and 180 degrees. *)
Definition sines_of (c s : r3) : Prop :=
  0 < rx s /\ 0 < ry s /\ 0 < rz s /\ rx s * rx s + rx c * rx c = 1 /\ ry s * ry s + ry c * ry c = 1 /\ rz s * rz s + rz c * rz c = 1.
Definition dual_to (m m' : mat) : Prop :=
  dot (va m) (va m') = 2 * PI /\ dot (va m) (vb m') = 0 /\ dot (va m) (vc m') = 0 /\
  dot (vb m) (va m') = 0 /\ dot (vb m) (vb m') = 2 * PI /\ dot (vb m) (vc m') = 0 /\
  dot (vc m) (va m') = 0 /\ dot (vc m) (vb m') = 0 /\ dot (vc m) (vc m') = 2 * PI.
(** Linear combinations of the basis vectors. *)
Definition at_ (m : mat) (x : r3) : r3 :=
  R3 (rx x * e00 m + ry x * e01 m + rz x * e02 m) (rx x * e10 m + ry x * e11 m + rz x * e12 m) (rx x * e20 m + ry x * e21 m + rz x * e22 m).
