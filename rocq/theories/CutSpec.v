(** Specification vocabulary for convex polyhedra: points and faces, each face a list of
    point numbers that runs anticlockwise seen from outside. *)
From Coq Require Import QArith.
From Verif Require Import Base QPoint.

Section Geometry.
Local Open Scope Q_scope.
Definition minus (a b : q3) : q3 := Q3 (qx a - qx b) (qy a - qy b) (qz a - qz b).
Definition dot (a b : q3) : Q := qx a * qx b + qy a * qy b + qz a * qz b.
Definition cross (a b : q3) : q3 := Q3 (qy a * qz b - qz a * qy b) (qz a * qx b - qx a * qz b) (qx a * qy b - qy a * qx b).
Definition same_place (a b : q3) : Prop := qx a == qx b /\ qy a == qy b /\ qz a == qz b.
(** How far a point is in front of the plane through three points, which run anticlockwise
    seen from the front. *)
Definition ahead (t : q3 * q3 * q3) (x : q3) : Q :=
  let '(a, b, c) := t in dot (cross (minus b a) (minus c a)) (minus x a).
Definition proper (t : q3 * q3 * q3) : Prop := exists x, ~ ahead t x == 0.
End Geometry.
Local Open Scope nat_scope.

Definition place (pts : list q3) (i : nat) : q3 := nth i pts (Q3 0 0 0).
Definition face_plane (pts : list q3) (f : list nat) : q3 * q3 * q3 :=
  (place pts (nth 0 f 0), place pts (nth 1 f 0), place pts (nth 2 f 0)).
(** The point is not in front of any face. *)
Definition inside (pts : list q3) (faces : list (list nat)) (x : q3) : Prop :=
  forall f, In f faces -> (ahead (face_plane pts f) x <= 0)%Q.
Definition strictly_inside (pts : list q3) (faces : list (list nat)) (x : q3) : Prop :=
  forall f, In f faces -> (ahead (face_plane pts f) x < 0)%Q.
(** The face goes from one corner directly to the next. *)
Definition goes (f : list nat) (i j : nat) : Prop :=
  exists k, k < length f /\ nth k f 0 = i /\ nth (S k mod length f) f 0 = j.
(** A convex polyhedron. *)
Record convex (pts : list q3) (faces : list (list nat)) : Prop := {
  (* different points, each of them on a face *)
  c_points : forall i j, i < length pts -> j < length pts -> same_place (place pts i) (place pts j) -> i = j;
  c_used : forall i, i < length pts -> exists f, In f faces /\ In i f;
  (* faces are strictly convex polygons *)
  c_corners : forall f, In f faces -> NoDup f /\ 3 <= length f /\ forall i, In i f -> i < length pts;
  c_turns : forall f i j l, In f faces -> goes f i j -> In l f -> l <> i -> l <> j ->
    (0 < dot (let '(a, b, c) := face_plane pts f in cross (minus b a) (minus c a))
             (cross (minus (place pts j) (place pts i)) (minus (place pts l) (place pts i))))%Q;
  (* no point is in front of a face, some are behind, and the corners are those in its plane *)
  c_side : forall f i, In f faces -> i < length pts -> (ahead (face_plane pts f) (place pts i) <= 0)%Q;
  c_plane : forall f i, In f faces -> i < length pts -> (ahead (face_plane pts f) (place pts i) == 0)%Q <-> In i f;
  c_behind : forall f, In f faces -> exists i, i < length pts /\ (ahead (face_plane pts f) (place pts i) < 0)%Q;
  (* each edge is on another face, too, in the other direction; no face is given twice *)
  c_closed : forall f i j, In f faces -> goes f i j -> exists g, In g faces /\ goes g j i;
  c_once : ForallOrdPairs (fun f g => exists i, In i f /\ ~ In i g) faces
}.
