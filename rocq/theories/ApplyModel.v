(** Model of Poly::apply, src/polyhedron_flex.hpp 162-187, and of the check of a candidate
    for the irreducible zone, src/bz.cpp 69-94.

    Everything is in the xyz frame, like ZoneModel; the matrices of the point group act on
    the components in the basis of the reciprocal lattice, to which and from which the
    coordinates are converted.  Rational coordinates, exact arithmetic, no tolerances. *)
From Coq Require Import QArith.
From Verif Require Import Base Array2Model MatSpec IsometryModel QPoint CutModel VolumeModel ZoneModel.
Local Open Scope outcome_scope.

(** src/array_lvec_methods.tpp 40-51 and src/array_functions.hpp 564-574: components in the basis and back. *)
Definition to_hkl (b : basis) (x : q3) : q3 :=
  let '(u, v, w) := b in
  let d := qdot u (qcross v w) in
  Q3 (qdot (qcross v w) x / d) (qdot (qcross w u) x / d) (qdot (qcross u v) x / d).
Definition from_hkl (b : basis) (y : q3) : q3 :=
  let '(u, v, w) := b in
  qadd (qadd (qscale (qx y) u) (qscale (qy y) v)) (qscale (qz y) w).
(** src/utilities.tpp 39-44: multiply_matrix_vector with a matrix of integers. *)
Definition mat_q3 (r : m3) (y : q3) : q3 :=
  qadd (qadd (qscale (qx y) (Q3 (inject_Z (m00 r)) (inject_Z (m10 r)) (inject_Z (m20 r))))
             (qscale (qy y) (Q3 (inject_Z (m01 r)) (inject_Z (m11 r)) (inject_Z (m21 r)))))
       (qscale (qz y) (Q3 (inject_Z (m02 r)) (inject_Z (m12 r)) (inject_Z (m22 r)))).
(** src/polyhedron_flex.hpp 164-173: the matrix is transposed for vectors of the reciprocal
    lattice, which all those of a Brillouin zone are. *)
Definition rotate (b : basis) (r : m3) (x : q3) : q3 := from_hkl b (mat_q3 (trans3 r) (to_hkl b x)).

(** src/geometry.hpp 249-264, without the division by the length, which changes no sign.  A
    normal of length zero is not a number there and gives a comparison that is false, here
    it gives a product that is not negative. *)
Definition three_point_normal (v : list q3) (face : list nat) : outcome q3 :=
  let* (i, j, k) := first_three face in
  let* a := rd v i in let* b := rd v j in let* c := rd v k in
  Ok (qcross (qsub b a) (qsub c b)).
Definition face_plane_points (v : list q3) (face : list nat) : outcome cutter :=
  let* (i, j, k) := first_three face in
  let* a := rd v i in let* b := rd v j in let* c := rd v k in Ok (a, b, c).
(** src/polyhedron_flex.hpp 181: std::swap of two indices of the face. *)
Definition swap12 (face : list nat) : outcome (list nat) :=
  match face with i :: j :: k :: r => Ok (i :: k :: j :: r) | _ => UB end.
(** src/polyhedron_flex.hpp 178-185. *)
Definition apply_face (b : basis) (r : m3) (v rotated : list q3) (face : list nat) : outcome (list nat) :=
  let* pre := three_point_normal v face in
  let* n := three_point_normal rotated face in
  if qneg (qdot (rotate b r pre) n) then
    let* f := swap12 face in
    let* t := face_plane_points rotated f in
    sort_face t f rotated
  else Ok face.
(** src/polyhedron_flex.hpp 162-187, with src/polyhedron_faces.hpp 182-195: there are no
    normals without points. *)
Definition apply (b : basis) (r : m3) (v : list q3) (faces : list (list nat)) : outcome (list q3 * list (list nat)) :=
  let rotated := map (rotate b r) v in
  match v, faces with
  | [], _ :: _ => Throw
  | _, _ => let* faces := mapM (apply_face b r v rotated) faces in Ok (rotated, faces)
  end.

(** src/pointsymmetry.cpp 385-393, with a sort after each operation; which order [std::sort]
    gives operations of equal order is left open. *)
Definition higher (sort : list m3 -> list m3) (min_order : Z) (ps : list m3) : list m3 :=
  fold_left (fun out r => sort (if (min_order <? rotation_order (l9 r))%Z then out ++ [r] else out)) ps [].

(** src/bz.cpp 83-90.  A comparison with a quotient of zeros, for polyhedra without volume, is
    not modelled and left as undefined. *)
Fixpoint no_overlap (fuel : nat) (b : basis) (v : list q3) (faces : list (list nat)) (ps : list m3) : outcome bool :=
  match ps with
  | [] => Ok true
  | r :: ps =>
      let* (w, gaces) := apply b r v faces in
      let* i := intersects fuel v faces w gaces in
      match i with Some true => Ok false | Some false => no_overlap fuel b v faces ps | None => UB end
  end.
(** src/bz.cpp 69-94, after check_if_mirroring_needed.  [ps] is the point group, with the
    inversion if time reversal was asked for.  Without an operation the volume would be
    compared with an infinite number. *)
Definition check_ir (fuel : nat) (b : basis) (sort : list m3 -> list m3) (ps : list m3)
    (first_v : list q3) (first_faces : list (list nat)) (v : list q3) (faces : list (list nat)) : outcome bool :=
  let* whole := volume first_v first_faces in
  let* part := volume v faces in
  match ps with
  | [] => Ok false
  | _ =>
      if negb (Qeq_bool part (whole / inject_Z (Z.of_nat (length ps)))) then Ok false
      else no_overlap fuel b v faces (higher sort 1 ps)
  end.
