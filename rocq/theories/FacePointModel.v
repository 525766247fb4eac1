(** Model of Faces::face_points, src/polyhedron_faces.hpp 172-187: for each face the average of
    its vertices.  Rational coordinates, exact arithmetic. *)
From Coq Require Import QArith.
From Verif Require Import Base Array2Model QPoint CutModel.
Local Open Scope outcome_scope.

(** src/polyhedron_faces.hpp 184.  The average of no vertices is not a number. *)
Definition face_point (v : list q3) (face : list nat) : outcome q3 :=
  let* rows := mapM (rd v) face in
  match face with
  | [] => UB
  | _ => Ok (qscale (1 / inject_Z (Z.of_nat (length face))) (fold_left qadd rows (Q3 0 0 0)))
  end.
Definition face_points (v : list q3) (faces : list (list nat)) : outcome (list q3) :=
  match v, faces with
  | [], _ :: _ => Throw
  | _, _ => mapM (face_point v) faces
  end.
