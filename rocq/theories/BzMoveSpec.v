(** Specification vocabulary for moving points into a Brillouin zone. *)
From Coq Require Import QArith.
From Verif Require Import Base MatSpec PrimitiveSpec.
Local Open Scope Q_scope.
Notation point := (Q * Q * Q)%type.

(** [p] is the sum of [q] and the lattice vector [t]. *)
Definition splits (p q : point) (t : Z * Z * Z) : Prop :=
  let '(p0, p1, p2) := p in let '(q0, q1, q2) := q in let '(t0, t1, t2) := t in
  p0 == q0 + inject_Z t0 /\ p1 == q1 + inject_Z t1 /\ p2 == q2 + inject_Z t2.
(** [p] is not beyond the plane through a, b and c, whose normal is (b-a) x (c-a). *)
Definition behind (pl : point * point * point) (p : point) : Prop :=
  let '((a0, a1, a2), (b0, b1, b2), (c0, c1, c2)) := pl in
  let '(p0, p1, p2) := p in
  ((b1 - a1) * (c2 - a2) - (b2 - a2) * (c1 - a1)) * (p0 - a0) +
  ((b2 - a2) * (c0 - a0) - (b0 - a0) * (c2 - a2)) * (p1 - a1) +
  ((b0 - a0) * (c1 - a1) - (b1 - a1) * (c0 - a0)) * (p2 - a2) <= 0.
Definition in_zone (planes : list (point * point * point)) (p : point) : Prop :=
  forall pl, In pl planes -> behind pl p.
(** The transpose of an integer matrix applied to a point. *)
Definition turn (r : m3) (p : point) : point :=
  let '(x, y, z) := p in
  (inject_Z (m00 r) * x + inject_Z (m10 r) * y + inject_Z (m20 r) * z,
   inject_Z (m01 r) * x + inject_Z (m11 r) * y + inject_Z (m21 r) * z,
   inject_Z (m02 r) * x + inject_Z (m12 r) * y + inject_Z (m22 r) * z).
(** The indices name operations which undo each other. *)
Definition undo (ops : list m3) (i j : nat) (R : m3) : Prop :=
  exists S, nth_error ops i = Some R /\ nth_error ops j = Some S /\ mul3 R S = I3 /\ mul3 S R = I3.
(** All the products with the normals have one sign; either one if [mirrored]. *)
Definition in_wedge (mirrored : bool) (normals : list point) (p : point) : Prop :=
  (forall n, In n normals -> 0 <= dot n p) \/ (mirrored = true /\ forall n, In n normals -> dot n p <= 0).
