(** Model of the point group of a space group and of adding space inversion:
    src/pointgroup.cpp (get_unique_rotations), src/spg_database.cpp (get_pointgroup_symmetry),
    src/symmetry.cpp (find_matrix_index) and the first lines of GammaTable::construct in
    src/phonon.hpp.  The functions add_space_inversion are in SymmetryModel. *)
From Coq Require Import List Ascii.
From Verif Require Import Base Array2Model MatModel MatSpec MotionModel SymmetryModel HallModel.
Import ListNotations.
Local Open Scope outcome_scope.

(** src/pointgroup.cpp 617-619: the product with the matrix of the inversion. *)
Definition inverted (r : m3) : m3 := m3_of (multiply_matrix_matrix 3 (l9 ps_inversion) (l9 r)).

(** src/pointgroup.cpp 626-629: is the rotation equal to one of those already found?  The answer starts
    as that for the rotation before, [flag]. *)
Fixpoint already (rot_tmp : list m3) (r : m3) (flag : bool) (unique_rot : list nat) : outcome bool :=
  match unique_rot with
  | [] => Ok flag
  | j :: t => let* x := rd rot_tmp j in if m3_eqb x r then Ok true else already rot_tmp r false t
  end.
(** src/pointgroup.cpp 605-641.  The indices are kept as [int] in the code. *)
Definition get_unique_rotations (rotations : list m3) (is_time_reversal : bool) : outcome (list m3) :=
  let rot_tmp := if is_time_reversal then rotations ++ map inverted rotations else rotations in
  let* st := foldM (fun (st : list nat * bool) i =>
    let (unique_rot, flag) := st in
    let* r := rd rot_tmp i in
    let* flag := already rot_tmp r flag unique_rot in
    Ok (if flag then unique_rot else unique_rot ++ [i], flag)) (seq 1 (length rot_tmp - 1)) ([0], false) in
  mapM (rd rot_tmp) (fst st).

(** src/spg_database.cpp 671-675; the constructor of PointSymmetry sorts with std::sort
    (src/pointsymmetry.hpp 48), which may put operations of the same order in any order. *)
Definition get_pointgroup_symmetry (sort : list m3 -> list m3) oc (hall : list ascii) (time_reversal : bool) : outcome (list m3) :=
  let* sym := spacegroup_symmetry oc hall in
  let* u := get_unique_rotations (map rotp sym) time_reversal in
  Ok (sort u).

(** src/symmetry.cpp 193-196. *)
Fixpoint find_matrix_index (s : list motion) (m : m3) : nat :=
  match s with [] => 0 | x :: t => if m3_eqb (rotp x) m then 0 else S (find_matrix_index t m) end.

(** src/phonon.hpp 112-137: the operation of the space group for each of the point group.  The
    copy made by PointSymmetry::generators is sorted again. *)
Definition point2space (sort : list m3 -> list m3) (D : Z) (time_reversal : bool) (ps : list m3) (spgsym : list motion)
  : outcome (list m3 * list motion * list nat) :=
  let* ps := (if time_reversal then ps_add_space_inversion ps (sort ps) else Ok ps) in
  let* spgsym := (if time_reversal then sym_add_space_inversion D spgsym else Ok spgsym) in
  let* p := mapM (fun r => let i := find_matrix_index spgsym r in if length spgsym <=? i then Throw else Ok i) ps in
  Ok (ps, spgsym, p).
