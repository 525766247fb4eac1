(** Model of the special points of a polyhedron: src/polyhedron_faces.hpp 201-215 (half_edges) and
    src/bz_wedge.cpp 62-64.  Rational coordinates, exact arithmetic. *)
From Coq Require Import QArith.
From Verif Require Import Base Array2Model QPoint CutModel FacesModel FacePointModel.
Local Open Scope outcome_scope.

(** src/polyhedron_faces.hpp 212. *)
Definition half_edge (v : list q3) (e : nat * nat) : outcome q3 :=
  let* x := rd v (fst e) in
  let* y := rd v (snd e) in
  Ok (qscale (1 / 2) (qadd x y)).
(** src/polyhedron_faces.hpp 202-215. *)
Definition half_edges (v : list q3) (faces : list (list nat)) : outcome (list q3) :=
  match v, faces with
  | [], _ :: _ => Throw
  | [], [] => Ok []
  | _, _ =>
    let* indexes := edges faces in
    mapM (half_edge v) indexes
  end.
(** src/bz_wedge.cpp 64, src/bz.cpp 97-99, 105-107, 121-123: the points of the faces, the vertices
    and the middles of the edges, in this order. *)
Definition special_points (v : list q3) (faces : list (list nat)) : outcome (list q3) :=
  let* points := face_points v faces in
  let* half := half_edges v faces in
  Ok (points ++ v ++ half).
