(** Specification vocabulary for the faces of a convex hull. *)
From Verif Require Import Base MatSpec HullSpec.
Local Open Scope Z_scope.

(** Some direction in which the point is farther than all others. *)
Definition extreme (pts : list v3) (p : v3) : Prop := exists g, forall q, In q pts -> q <> p -> dot3 g q < dot3 g p.
Definition convex_position (pts : list v3) : Prop := NoDup pts /\ forall p, In p pts -> extreme pts p.
Definition front (t : plane) : v3 := let '(a, b, c) := t in cross3 (minus3 b a) (minus3 c a).
(** The list of corners runs anticlockwise seen from the front of the plane and is strictly
    convex: all other corners are to the left of the way from one to the next. *)
Definition anticlockwise (pts : list v3) (n : v3) (f : list nat) : Prop :=
  forall k i j l u v w, nth_error f k = Some i -> nth_error f (S k mod length f) = Some j -> In l f -> l <> i -> l <> j ->
    nth_error pts i = Some u -> nth_error pts j = Some v -> nth_error pts l = Some w ->
    0 < dot3 n (cross3 (minus3 v u) (minus3 w u)).
(** The corners of a face are all points in its plane. *)
Definition facet (pts : list v3) (t : plane) (f : list nat) : Prop :=
  NoDup f /\ (3 <= length f)%nat /\ (forall i, In i f <-> exists p, nth_error pts i = Some p /\ height t p = 0) /\ anticlockwise pts (front t) f.
(** Some face has all its corners in the plane. *)
Definition covers (vertices : list v3) (faces : list (list nat)) (t : plane) : Prop :=
  exists f, In f faces /\ f <> [] /\ forall i, In i f -> exists p, nth_error vertices i = Some p /\ height t p = 0.
(** No three points are on one line. *)
Definition no_three_on_a_line (pts : list v3) : Prop :=
  forall a b c, In a pts -> In b pts -> In c pts -> a <> b -> a <> c -> b <> c -> spans (a, b, c).
