(** Model of the irreducible zone of a triclinic lattice: wedge_triclinic,
    src/bz_wedge.cpp 456-485, and the end of construct, src/bz.hpp 156-192.

    The frame and the arithmetic are those of ZoneModel and ApplyModel. *)
From Coq Require Import QArith.
From Verif Require Import Base Array2Model MatSpec IsometryModel SymmetryModel QPoint CutModel VolumeModel ZoneModel ApplyModel.
Local Open Scope outcome_scope.

(** src/polyhedron_faces.hpp 188-200.  The lengths of the normals are not divided out, as in
    plane_points_from_normal, to which they go. *)
Definition face_normals (v : list q3) (faces : list (list nat)) : outcome (list q3) :=
  match v, faces with
  | [], _ :: _ => Throw
  | _, _ => mapM (three_point_normal v) faces
  end.
(** src/bz_wedge.cpp 470-474 and 478-482.  The polyhedron cut last stays when none is good.
    check_ir_polyhedron calls check_if_mirroring_needed, which does nothing (but set a flag) if
    there is an inversion, src/bz.hpp 218-220. *)
Fixpoint try_normals (fuel : nat) (b : basis) (sort : list m3 -> list m3) (ps : list m3) (v : list q3) (faces : list (list nat))
    (normals : list q3) (last : list q3 * list (list nat)) : outcome (bool * (list q3 * list (list nat))) :=
  match normals with
  | [] => Ok (false, last)
  | n :: normals =>
      let* part := one_cut fuel v faces (plane_points_from_normal (qscale (-1) n) (Q3 0 0 0)) in
      let* good := check_ir fuel b sort ps v faces (fst part) (snd part) in
      if good : bool then Ok (true, part) else try_normals fuel b sort ps v faces normals part
  end.
(** src/bz_wedge.cpp 456-485.  The view of the first of no normals is undefined. *)
Definition wedge_triclinic (fuel : nat) (b : basis) (sort : list m3 -> list m3) (ps : list m3) (v : list q3) (faces : list (list nat))
  : outcome (bool * (list q3 * list (list nat))) :=
  let* normals := face_normals v faces in
  match normals with
  | [] => UB
  | _ =>
      let* (good, last) := try_normals fuel b sort ps v faces normals (v, faces) in
      if good : bool then Ok (true, last)
      else try_normals fuel b sort ps v faces (map (from_hkl b) [Q3 1 0 0; Q3 0 1 0; Q3 0 0 1; Q3 1 1 1]%Q) last
  end.
(** src/bz.hpp 126, 143-192, with a search for the wedge: first and irreducible zone.
    is_triclinic is src/lattice_dual.hpp 659.  [brute], wedge_brute_force, is a parameter; its
    end is in WedgeModel. *)
Definition construct_ir (brute : list q3 * list (list nat) -> outcome (list q3 * list (list nat))) (loops fuel : nat) (b : basis)
    (sort_points : list q3 -> list q3) (sort : list m3 -> list m3) (ps : list m3) (time_reversal : bool) (divide_extent : Z)
  : outcome ((list q3 * list (list nat)) * (list q3 * list (list nat))) :=
  let has_inversion := time_reversal || ps_has_space_inversion ps in
  let* first := construct_first loops fuel b sort_points divide_extent in
  match higher sort 1 ps with
  | [] =>
      if negb has_inversion then Ok (first, first)
      else
        let* full := (if time_reversal then ps_add_space_inversion ps (sort ps) else Ok ps) in
        let* (good, part) := wedge_triclinic fuel b sort full (fst first) (snd first) in
        if good : bool then Ok (first, part) else Throw
  | _ => let* part := brute first in Ok (first, part)
  end.
