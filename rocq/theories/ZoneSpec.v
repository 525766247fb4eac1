(** Specification vocabulary for Brillouin zones. *)
From Coq Require Import QArith.
From Verif Require Import Base QPoint CutSpec VolumeSpec.

Section Zone.
Local Open Scope Q_scope.
Definition lattice_point (b : q3 * q3 * q3) (i j k : Z) : q3 :=
  let '(u, v, w) := b in
  Q3 (inject_Z i * qx u + inject_Z j * qx v + inject_Z k * qx w)
     (inject_Z i * qy u + inject_Z j * qy v + inject_Z k * qy w)
     (inject_Z i * qz u + inject_Z j * qz v + inject_Z k * qz w).
Definition independent (b : q3 * q3 * q3) : Prop := let '(u, v, w) := b in ~ dot (cross u v) w == 0.
Definition origin : q3 := Q3 0 0 0.
(** The first Brillouin zone: no lattice point is nearer than the origin. *)
Definition first_zone (b : q3 * q3 * q3) (x : q3) : Prop :=
  forall i j k, distance2 x origin <= distance2 x (lattice_point b i j k).
Definition up_to (e i j k : Z) : Prop := (- e <= i <= e /\ - e <= j <= e /\ - e <= k <= e)%Z.
(** No lattice point with small coefficients is nearer. *)
Definition nearest_of (b : q3 * q3 * q3) (e : Z) (x : q3) : Prop :=
  forall i j k, up_to e i j k -> distance2 x origin <= distance2 x (lattice_point b i j k).
(** The point is in the smallest box that holds these lattice points. *)
Definition in_box (b : q3 * q3 * q3) (e : Z) (x : q3) : Prop :=
  forall c, In c [qx; qy; qz] ->
    (exists i j k, up_to e i j k /\ c (lattice_point b i j k) <= c x) /\
    (exists i j k, up_to e i j k /\ c x <= c (lattice_point b i j k)).
(** The three vectors and the opposite of their sum are at angles of at least 90 degrees. *)
Definition obtuse (b : q3 * q3 * q3) : Prop :=
  let '(u, v, w) := b in
  let o := Q3 (- (qx u + qx v + qx w)) (- (qy u + qy v + qy w)) (- (qz u + qz v + qz w)) in
  dot u v <= 0 /\ dot u w <= 0 /\ dot v w <= 0 /\ dot o u <= 0 /\ dot o v <= 0 /\ dot o w <= 0.
End Zone.
