(** Specification vocabulary for convex hulls: oriented planes through three points. *)
From Verif Require Import Base MatSpec.
Local Open Scope Z_scope.

Definition minus3 (a b : v3) : v3 := V3 (v0 a - v0 b) (v1 a - v1 b) (v2 a - v2 b).
Definition plus3 (a b : v3) : v3 := V3 (v0 a + v0 b) (v1 a + v1 b) (v2 a + v2 b).
Definition times3 (k : Z) (a : v3) : v3 := V3 (k * v0 a) (k * v1 a) (k * v2 a).
Definition plane := (v3 * v3 * v3)%type.
(** How far a point is in front of the plane through [a], [b], [c], which run anticlockwise
    seen from the front: six times the signed volume of the tetrahedron. *)
Definition height (t : plane) (p : v3) : Z :=
  let '(a, b, c) := t in dot3 (minus3 p a) (cross3 (minus3 b a) (minus3 c a)).
(** No combination of the two edges vanishes. *)
Definition spans (t : plane) : Prop :=
  let '(a, b, c) := t in forall u v, plus3 (times3 u (minus3 b a)) (times3 v (minus3 c a)) = V3 0 0 0 -> u = 0 /\ v = 0.
(** The same plane with the same front. *)
Definition same_plane (t t' : plane) : Prop := forall p, Z.sgn (height t p) = Z.sgn (height t' p).
(** A plane through three of the points, with no point in front and some behind. *)
Definition bounding (pts : list v3) (t : plane) : Prop :=
  (let '(a, b, c) := t in In a pts /\ In b pts /\ In c pts) /\ spans t /\
  (forall p, In p pts -> height t p <= 0) /\ exists p, In p pts /\ height t p < 0.
(** All points are in one plane. *)
Definition coplanar (pts : list v3) : Prop := exists n d, n <> V3 0 0 0 /\ forall p, In p pts -> dot3 n p = d.
