(** Specification vocabulary for point groups that act on a Brillouin zone. *)
From Coq Require Import QArith.
From Verif Require Import Base MatSpec IsometrySpec QPoint CutSpec VolumeSpec ZoneSpec.

(** The point with these components in the basis. *)
Definition combination (b : q3 * q3 * q3) (h k l : Q) : q3 :=
  let '(u, v, w) := b in
  Q3 (h * qx u + k * qx v + l * qx w) (h * qy u + k * qy v + l * qy w) (h * qz u + k * qz v + l * qz w).
(** The operation takes a point of reciprocal space to another: its matrix, transposed, is
    applied to the components. *)
Definition carries (b : q3 * q3 * q3) (m : m3) (x y : q3) : Prop :=
  let z := inject_Z in
  exists h k l, same_place x (combination b h k l) /\
    same_place y (combination b (z (m00 m) * h + z (m10 m) * k + z (m20 m) * l)
                                (z (m01 m) * h + z (m11 m) * k + z (m21 m) * l)
                                (z (m02 m) * h + z (m12 m) * k + z (m22 m) * l)).
Definition point_group (ps : list m3) : Prop :=
  NoDup ps /\ In I3 ps /\ (forall m n, In m ps -> In n ps -> In (mul3 m n) ps) /\ forall m, In m ps -> finite_order m.
Definition inversion : m3 := M3 (-1) 0 0 0 (-1) 0 0 0 (-1).
(** The operations take a polyhedron to itself. *)
Definition kept (b : q3 * q3 * q3) (ps : list m3) (pts : list q3) (faces : list (list nat)) : Prop :=
  forall m x y, In m ps -> carries b m x y -> inside pts faces x -> inside pts faces y.
(** Each point of a polyhedron is the image of a point of its part. *)
Definition covered (b : q3 * q3 * q3) (ps : list m3) (pts : list q3) (faces : list (list nat)) (v : list q3) (part : list (list nat)) : Prop :=
  forall y, inside pts faces y -> exists m x, In m ps /\ inside v part x /\ carries b m x y.
(** Images of the part under different operations do not overlap. *)
Definition disjoint (b : q3 * q3 * q3) (ps : list m3) (v : list q3) (part : list (list nat)) : Prop :=
  forall m n x y z, In m ps -> In n ps -> strictly_inside v part x -> strictly_inside v part y -> carries b m x z -> carries b n y z -> m = n.
