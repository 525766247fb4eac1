(** Specification vocabulary for planes that cut a Brillouin zone into equivalent parts. *)
From Coq Require Import QArith.
From Verif Require Import Base MatSpec QPoint CutSpec ZoneSpec ApplySpec.

(** The operation changes no lengths. *)
Definition keeps_lengths (b : q3 * q3 * q3) (r : m3) : Prop :=
  forall x y, carries b r x y -> (dot y y == dot x x)%Q.
(** Repeating the operation takes one point to the other. *)
Inductive turns_to (b : q3 * q3 * q3) (r : m3) (x : q3) : q3 -> Prop :=
| turns_none y : same_place x y -> turns_to b r x y
| turns_more y z : turns_to b r x y -> carries b r y z -> turns_to b r x z.
(** Each point is taken to the inner side of all planes by repeating the operation. *)
Definition covers (b : q3 * q3 * q3) (r : m3) (ns : list q3) : Prop :=
  forall x, exists y, turns_to b r x y /\ forall n, In n ns -> (0 <= dot n y)%Q.
(** The vector of the direct lattice with these components: its products with the vectors of the
    reciprocal lattice, without the factor 2 pi. *)
Definition direct (b : q3 * q3 * q3) (z : v3) (a : q3) : Prop :=
  let '(u, v, w) := b in (dot a u == inject_Z (v0 z) /\ dot a v == inject_Z (v1 z) /\ dot a w == inject_Z (v2 z))%Q.
Definition parallel (a c : q3) : Prop := same_place (cross a c) (Q3 0 0 0).
(** The operation keeps the direction, or reverses it if it is an improper one. *)
Definition stationary (r : m3) (z : v3) : Prop :=
  z <> V3 0 0 0 /\ act3 r z = V3 (det3 r * v0 z) (det3 r * v1 z) (det3 r * v2 z).
Definition is_mirror (r : m3) : Prop := det3 r = (-1)%Z /\ pow3 r 2 = I3 /\ tr3 r = 1%Z.
Definition is_two_fold (r : m3) : Prop := det3 r = 1%Z /\ pow3 r 2 = I3 /\ r <> I3.
(** The entries are -1, 0 or 1. *)
Definition small_matrix (r : m3) : Prop := Forall (fun x => -1 <= x <= 1)%Z (l9 r).
(** A two-fold axis along the vector (1,0,-1) of the reciprocal lattice is along the vector
    [1,0,-1] of the direct lattice. *)
Definition matching_axis (b : q3 * q3 * q3) (r : m3) : Prop :=
  is_two_fold r -> forall z a d, stationary r z -> direct b z a -> parallel (lattice_point b 1 0 (-1)) a ->
    direct b (V3 1 0 (-1)) d -> parallel d a.
