(** Model of the construction of the first Brillouin zone, src/bz.cpp 197-231,
    src/bz.hpp 142-160, src/geometry.hpp 185-207 and src/polyhedron_flex.hpp 305-328.
    Everything is in the xyz frame, where the choice between primitive and conventional
    lattice only changes the basis.  Coordinates are rational numbers, the arithmetic is exact
    and comparisons have no tolerance. *)
From Coq Require Import QArith.
From Verif Require Import Base Array2Model NeighbourModel QPoint CutModel VolumeModel.
Local Open Scope outcome_scope.

Definition basis := (q3 * q3 * q3)%type.
(** The xyz coordinates of a lattice vector. *)
Definition tau (b : basis) (t : triple) : q3 :=
  let '(u, v, w) := b in
  let '(i, j, k) := t in
  qadd (qadd (qscale (inject_Z i) u) (qscale (inject_Z j) v)) (qscale (inject_Z k) w).

(** src/geometry.hpp 185-207, for a normal that is not zero.  The code divides the normal and
    the second vector by their lengths, here they are left as they are: the points are others
    in the same plane and on the same side of the first one. *)
Definition plane_points_from_normal (n p : q3) : cutter :=
  let a_dot_n := qscale (qdot (Q3 1 1 1) n / qdot n n) n in
  let a := qsub (if qeqb a_dot_n (Q3 1 1 1) then Q3 2 0 1 else Q3 1 1 1) a_dot_n in
  (p, qadd a p, qadd (qcross n a) p).

(** src/array2.tpp 550-592, one column.  For no rows the result is the limit of the type,
    which is not modelled. *)
Definition smallest (l : list Q) : outcome Q :=
  match l with [] => UB | x :: r => Ok (fold_left (fun m y => if Qle_bool m y then m else y) r x) end.
Definition largest (l : list Q) : outcome Q :=
  match l with [] => UB | x :: r => Ok (fold_left (fun m y => if Qle_bool y m then m else y) r x) end.

(** src/polyhedron_flex.hpp 305-328. *)
Definition box_points (lo hi : q3) : list q3 :=
  [ Q3 (qx lo) (qy lo) (qz lo); Q3 (qx lo) (qy hi) (qz lo); Q3 (qx lo) (qy hi) (qz hi); Q3 (qx lo) (qy lo) (qz hi);
    Q3 (qx hi) (qy lo) (qz lo); Q3 (qx hi) (qy hi) (qz lo); Q3 (qx hi) (qy hi) (qz hi); Q3 (qx hi) (qy lo) (qz hi) ].
Definition box_faces : list (list nat) :=
  [[3;0;4;7];[3;2;1;0];[0;1;5;4];[3;7;6;2];[7;4;5;6];[2;6;5;1]]%nat.
Definition bounding_box (points : list q3) : outcome (list q3 * list (list nat)) :=
  let* x0 := smallest (map qx points) in let* y0 := smallest (map qy points) in let* z0 := smallest (map qz points) in
  let* x1 := largest (map qx points) in let* y1 := largest (map qy points) in let* z1 := largest (map qz points) in
  Ok (box_points (Q3 x0 y0 z0) (Q3 x1 y1 z1), box_faces).

(** src/bz.cpp 197-231.  The lattice vectors are sorted by length; [std::sort] leaves those of
    equal length in any order, so the sorting is a parameter. *)
Definition voro_search (fuel : nat) (b : basis) (sort : list q3 -> list q3) (extent : Z) : outcome (list q3 * list (list nat)) :=
  let* ts := make_relative_neighbour_indices extent in
  let taus := sort (map (tau b) ts) in
  let* (v, faces) := bounding_box taus in
  cut fuel v faces (map (fun t => plane_points_from_normal t (qscale (1 # 2) t)) taus).

(** src/bz.hpp 142-155: the loop; [OutOfFuel] when it runs more than [loops] times. *)
Fixpoint grow (loops fuel : nat) (b : basis) (sort : list q3 -> list q3) (extent : Z) (volume_before : Q) : outcome (list q3 * list (list nat)) :=
  match loops with
  | O => OutOfFuel
  | S loops =>
      let* (v, faces) := voro_search fuel b sort (extent + 1) in
      let* volume_now := volume v faces in
      if Qeq_bool volume_now volume_before then
        if Qeq_bool volume_now 0 then Throw else Ok (v, faces)
      else grow loops fuel b sort (extent + 1) volume_now
  end.
(** src/bz.hpp 105-160 up to the search for the irreducible wedge; [divide_extent] is the
    option of this name, 1 unless given. *)
Definition construct_first (loops fuel : nat) (b : basis) (sort : list q3 -> list q3) (divide_extent : Z) : outcome (list q3 * list (list nat)) :=
  grow loops fuel b sort (divide_extent - 1) 0.
