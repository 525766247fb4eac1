(** Operations of a lattice. *)
From Coq Require Import Reals ZArith List.
From Verif Require Import MatSpec AngleModel LatticeModel LatticeSpec.
Local Open Scope R_scope.

Definition group (ops : list m3) : Prop :=
  In I3 ops /\ (forall r s, In r ops -> In s ops -> In (mul3 r s) ops) /\ forall r, In r ops -> exists s, In s ops /\ mul3 s r = I3.
(** What an operation does to components in real and in reciprocal space. *)
Definition side (is_real : bool) (r : m3) : m3 := if is_real then r else trans3 r.
Definition act (r : m3) (x : r3) : r3 :=
  R3 (IZR (m00 r) * rx x + IZR (m01 r) * ry x + IZR (m02 r) * rz x) (IZR (m10 r) * rx x + IZR (m11 r) * ry x + IZR (m12 r) * rz x) (IZR (m20 r) * rx x + IZR (m21 r) * ry x + IZR (m22 r) * rz x).
(** An operation that keeps all scalar products. *)
Definition keeps (m : mat) (r : m3) : Prop := forall x y, dot (at_ m (act r x)) (at_ m (act r y)) = dot (at_ m x) (at_ m y).
Definition has_symmetry (is_real : bool) (ops : list m3) (m : mat) : Prop := forall r, In r ops -> keeps m (side is_real r).
(** The three basis vectors. *)
Definition unit3 (i : nat) : v3 := match i with O => V3 1 0 0 | 1%nat => V3 0 1 0 | _ => V3 0 0 1 end.
Definition entry (a : r3) (i : nat) : R := match i with O => rx a | 1%nat => ry a | _ => rz a end.
Definition linked (is_real : bool) (ops : list m3) (i j : nat) : Prop := exists r, In r ops /\ act3 (side is_real r) (unit3 i) = unit3 j.
Definition near (e : R) (a b : r3) : Prop := Rabs (rx a - rx b) <= e /\ Rabs (ry a - ry b) <= e /\ Rabs (rz a - rz b) <= e.
