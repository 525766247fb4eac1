(** Model of the whole search for the irreducible wedge of a Brillouin zone that is not triclinic:
    src/bz.hpp 158-197 with src/bz_wedge.cpp 44-449, from the first zone and the point group.
    The parts are those of HalfEdgeModel, CuttingModel and WedgeModel; which order [std::sort]
    gives to equal elements is left open, so the three sorts are arguments. *)
From Coq Require Import QArith.
From Verif Require Import Base Array2Model MatSpec QPoint CutModel ZoneModel ApplyModel HalfEdgeModel WedgeModel CuttingModel.
Local Open Scope outcome_scope.
Local Open Scope nat_scope.

(** The arguments of wedge_brute_force in this order: special_2_folds, special_mirrors,
    sort_by_length, sort_one_sym. *)
Definition settings : Type := bool * bool * bool * bool.
(** src/bz.hpp 167-181 with the default arguments of 580-582. *)
Definition tried : list settings :=
  [(true, true, true, true); (false, false, true, true); (false, true, true, true); (true, false, true, true);
   (true, true, false, true); (true, false, true, false); (false, false, false, true); (false, false, false, false)].
Definition v3_eq (x y : v3) : bool := ((v0 x =? v0 y) && (v1 x =? v1 y) && (v2 x =? v2 y))%Z.
(** src/bz_wedge.cpp 403-407: whether all axes are the same. *)
Definition one_axis (ops : list m3) : bool :=
  match map axis ops with [] => false | a :: l => forallb (v3_eq a) l end.

Section Full.
(** [by_length] sorts as on lines 74-79 of src/bz_wedge.cpp, [by_isometry] as on lines 83-85,
    [by_number] as on lines 236-244; [sort] is that of src/pointsymmetry.cpp 173-188. *)
Variables (sort by_length by_isometry : list m3 -> list m3) (by_number : list (list nat) -> list (list nat)).
Variables (b : basis) (ps : list m3) (first : poly).
(** src/bz_wedge.cpp 54-370: the normals found and whether there is one axis.  The assertion of
    line 60 is for a point group that is triclinic. *)
Definition brute_normals (s : settings) : outcome (list q3 * bool) :=
  let '(two, mir, len, num) := s in
  let ops := (if len : bool then by_length else by_isometry) (higher sort 1 ps) in
  match ops with
  | [] => UB
  | _ =>
      let* special := special_points (fst first) (snd first) in
      let* st := find_cuts b ops two mir (if num : bool then by_number else fun l => l) special in
      Ok (f_cuts st, one_axis ops)
  end.
(** src/bz.hpp 158-197.  The normals of an attempt do not depend on those before, and here are all
    found at the start. *)
Definition wedge_search (hull : poly -> poly -> outcome poly) (fuel : nat) (has_inversion : bool) : outcome state :=
  let* founds := mapM brute_normals tried in
  search hull fuel b sort ps has_inversion first founds.
End Full.
