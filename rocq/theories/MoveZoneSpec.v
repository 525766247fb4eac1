(** Specification vocabulary for moving points into the first zone of a lattice. *)
From Coq Require Import QArith.
From Verif Require Import Base QPoint CutSpec VolumeSpec ZoneSpec ApplySpec.
Local Open Scope Q_scope.
Definition right_handed (b : q3 * q3 * q3) : Prop := let '(u, v, w) := b in 0 < dot (cross u v) w.
Definition right_angles (b : q3 * q3 * q3) : Prop := let '(u, v, w) := b in dot u v == 0 /\ dot u w == 0 /\ dot v w == 0.
(** The point with these components. *)
Definition located (b : q3 * q3 * q3) (q : Q * Q * Q) : q3 := let '(x, y, z) := q in combination b x y z.
(** No translate of the point by a lattice vector is on the plane of a face. *)
Definition off_faces (b : q3 * q3 * q3) (p : list q3) (faces : list (list nat)) (x : q3) : Prop :=
  forall g i j k, In g faces -> ~ ahead (face_plane p g) (minus x (lattice_point b i j k)) == 0.
(** The vector takes the first point to the second. *)
Definition apart (b : q3 * q3 * q3) (x y : q3) (t : Z * Z * Z) : Prop :=
  let '(i, j, k) := t in same_place x (Q3 (qx y + qx (lattice_point b i j k)) (qy y + qy (lattice_point b i j k)) (qz y + qz (lattice_point b i j k))).
