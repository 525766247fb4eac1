(** Model of what BrillouinZone::moveinto, src/bz_move.cpp 103-163, takes from the polyhedron of
    the first zone, for a primitive lattice: the planes, normals and lattice vectors of its
    faces.  The polyhedron is in the xyz frame, as in ZoneModel; the points to move are in
    components of the lattice, as in BzMoveModel.  Rational coordinates, exact arithmetic. *)
From Coq Require Import QArith Qround.
From Verif Require Import Base Array2Model MatSpec MotionModel PrimitiveModel QPoint CutModel ZoneModel ApplyModel TriclinicModel FacePointModel.
From Verif Require BzMoveModel.
Local Open Scope outcome_scope.

(** std::round: to the nearest integer, halves away from zero (src/array2.tpp, round). *)
Definition std_round (x : Q) : Z :=
  if Qle_bool 0 x then Qfloor (x + (1 # 2)) else Z.opp (Qfloor (- x + (1 # 2))).
Definition components (x : q3) : qvec := (qx x, qy x, qz x).
Definition q3_of (q : qvec) : q3 := let '(x, y, z) := q in Q3 x y z.
(** src/bz_move.cpp 29-30, 138-139, 141, for one face: N_hkl and a number in the order of
    qi_dot_normals, its square with its sign.  In place of the product of the lengths of the
    normal and of the lattice vector, which is not rational, there is their scalar product:
    they are parallel. *)
Definition face_score (b : basis) (n : q3) (t : zvec) (q : qvec) : Z * Q :=
  let d := qdot (from_hkl b (q3_of q)) n in
  (std_round (d / qdot n (from_hkl b (q3_of (BzMoveModel.qof t)))),
   (if qneg d then - (d * d) else d * d) / qdot n n)%Q.
(** src/bz_move.cpp 127, 138-141; src/bz.cpp 96-120; src/polyhedron_faces.hpp 152-170. *)
Definition zone_of (b : basis) (v : list q3) (faces : list (list nat)) (ops : list m3) (wedge : list qvec) (mir : bool)
  : outcome BzMoveModel.zone :=
  let* pls := mapM (face_plane_points v) faces in
  let* points := face_points v faces in
  let* normals := face_normals v faces in
  let taus := map (fun p => BzMoveModel.round3 std_round (components (qscale 2 (to_hkl b p)))) points in
  Ok (BzMoveModel.Zone B_P true
        (map (fun pl => let '(x, y, z) := pl in (components (to_hkl b x), components (to_hkl b y), components (to_hkl b z))) pls)
        taus
        (fun q => map (fun nt => face_score b (fst nt) (snd nt) q) (combine normals taus))
        ops wedge mir).
