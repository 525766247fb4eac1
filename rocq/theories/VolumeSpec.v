(** Specification vocabulary for volumes: a convex polyhedron seen from a point in it is made
    of tetrahedra, one for each triangle of a face. *)
From Coq Require Import QArith Qabs.
From Verif Require Import Base QPoint CutSpec.
Local Open Scope nat_scope.

Definition triangles (pts : list q3) (f : list nat) : list (q3 * q3 * q3) :=
  map (fun k => (place pts (nth 0 f 0), place pts (nth (k + 1) f 0), place pts (nth (k + 2) f 0))) (seq 0 (length f - 2)).
Definition qsum (l : list Q) : Q := fold_right Qplus 0%Q l.
(** The sum over all triangles of all faces. *)
Definition total (g : q3 * q3 * q3 -> Q) (pts : list q3) (faces : list (list nat)) : Q := qsum (map g (flat_map (triangles pts) faces)).
Section Tetrahedra.
Local Open Scope Q_scope.
(** A sixth of the determinant. *)
Definition tetrahedron_volume (o : q3) (t : q3 * q3 * q3) : Q := Qabs (ahead t o) / 6.
(** The mean of the corners, along a direction. *)
Definition tetrahedron_centre (d : q3) (o : q3) (t : q3 * q3 * q3) : Q := let '(a, b, c) := t in (dot d o + dot d a + dot d b + dot d c) / 4.
Definition distance2 (a b : q3) : Q := dot (minus a b) (minus a b).
Definition moved (d x : q3) : q3 := Q3 (qx x + qx d) (qy x + qy d) (qz x + qz d).
Definition opposite (x : q3) : q3 := Q3 (- qx x) (- qy x) (- qz x).
End Tetrahedra.
