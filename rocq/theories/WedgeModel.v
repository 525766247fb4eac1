(** Model of the end of the search for the irreducible wedge, src/bz_wedge.cpp 360-453, of
    check_if_mirroring_needed, src/bz.hpp 217-262, and of the normals of the wedge,
    src/bz.cpp 22-56.

    Which normals the search finds from the special points of the zone (for this see
    CuttingModel), and whether all stationary axes are equal, are arguments here.  So is the convex hull of
    the corners of two polyhedra, src/bz.hpp 238-246.  The frame and the arithmetic are those of
    ZoneModel and ApplyModel. *)
From Coq Require Import QArith.
From Verif Require Import Base Array2Model MatSpec PruneModel IsometryModel SymmetryModel QPoint CutModel VolumeModel ZoneModel ApplyModel TriclinicModel FacePointModel.
Local Open Scope outcome_scope.
Local Open Scope nat_scope.

Definition poly := (list q3 * list (list nat))%type.
Definition qzero (a : q3) : bool := qeqb a (Q3 0 0 0).

(** src/bz.cpp 27-35: faces with a point that is not on the plane of a face of the first zone.
    A face is given by its normal and its point. *)
Definition off_plane (faces : list (q3 * q3)) (g : q3 * q3) : outcome (list (q3 * q3)) :=
  match filter (fun f => negb (Qeq_bool (qdot (fst g) (qsub (snd f) (snd g))) 0)) faces with
  | [] => Throw
  | l => Ok l
  end.
(** src/bz.cpp 44-48, for one [i]: the first later normal that is opposite and not yet used.
    The normals there are divided by their lengths and sum to zero. *)
Definition opposite_way (a c : q3) : bool := qzero (qcross a c) && qneg (qdot a c).
Fixpoint partner (normals : list q3) (free : list bool) (a : q3) (js : list nat) : outcome (option nat) :=
  match js with
  | [] => Ok None
  | j :: js =>
      let* fr := rd free j in
      let* c := rd normals j in
      if fr && opposite_way a c then Ok (Some j) else partner normals free a js
  end.
Definition pair_off (normals : list q3) (st : list bool * list bool) (i : nat) : outcome (list bool * list bool) :=
  let (free, keep) := st in
  let* fr := rd free i in
  if fr : bool then
    let* a := rd normals i in
    let* j := partner normals free a (seq (S i) (length normals - S i)) in
    match j with
    | None => Ok (free, keep)
    | Some j =>
        let* free := wr free i false in
        let* free := wr free j false in
        let* keep := wr keep j false in
        Ok (free, keep)
    end
  else Ok (free, keep).
(** src/bz.cpp 41-52.  For no normals the bound of the loop is the largest number. *)
Definition thin_out (normals : list q3) : outcome (list q3) :=
  if Nat.even (length normals) then
    match normals with
    | [] => UB
    | _ =>
        let all := map (fun _ => true) normals in
        let* (free, keep) := foldM (pair_off normals) (seq 0 (length normals - 1)) (all, all) in
        if existsb (fun b => b) free then Ok normals else Ok (pick keep normals)
    end
  else Ok normals.
(** src/bz.cpp 22-56.  No rows are broadcast to one row, which is not there, as in
    HullFacesModel. *)
Definition wedge_normals (first ir : poly) : outcome (list q3) :=
  let* ir_n := face_normals (fst ir) (snd ir) in
  let* ir_p := face_points (fst ir) (snd ir) in
  let* bz_n := face_normals (fst first) (snd first) in
  let* bz_p := face_points (fst first) (snd first) in
  match snd ir with
  | [] => UB
  | _ =>
      let* rest := foldM off_plane (combine bz_n bz_p) (combine ir_n ir_p) in
      let* normals := thin_out (map Datatypes.fst rest) in
      Ok (map (qscale (-1)) normals)
  end.

(** What the search changes: the irreducible polyhedron, the normals of the wedge (None before
    they are set), no_ir_mirroring, and, only here, whether the polyhedron is the hull of a
    polyhedron and its mirror image. *)
Record state := State { s_ir : poly; s_wedge : option (list q3); s_no_mirroring : bool; s_hull : bool }.

Section Search.
Variables (hull : poly -> poly -> outcome poly) (fuel : nat) (b : basis) (sort : list m3 -> list m3).
(** [ps] is the point group, with the inversion if time reversal was asked for; [has_inversion]
    is src/bz.hpp 110. *)
Variables (ps : list m3) (has_inversion : bool) (first : poly).

Definition vol (p : poly) : outcome Q := volume (fst p) (snd p).
Definition goal_volume : outcome Q := let* v := vol first in Ok (v / inject_Z (Z.of_nat (length ps)))%Q.
(** src/bz.hpp 237-250. *)
Fixpoint unions (goal : Q) (ir mirrored : poly) (ms : list m3) : outcome (list poly) :=
  match ms with
  | [] => Ok []
  | m :: ms =>
      let* r := apply b m (fst mirrored) (snd mirrored) in
      let* c := hull ir r in
      let* v := vol c in
      let* l := unions goal ir mirrored ms in
      Ok (if Qeq_bool v goal then c :: l else l)
  end.
(** src/bz.hpp 217-262.  Without operations the volume is compared with an infinite number. *)
Definition mirroring (st : state) : outcome state :=
  if has_inversion then Ok (State (s_ir st) (s_wedge st) true (s_hull st))
  else match ps with
  | [] => Ok (State (s_ir st) (s_wedge st) false (s_hull st))
  | _ =>
      let* goal := goal_volume in
      let* found := vol (s_ir st) in
      let unmirrored := Ok (State (s_ir st) (s_wedge st) (Qeq_bool goal found) (s_hull st)) in
      if Qeq_bool goal (2 * found) then
        let* valid := unions goal (s_ir st) (mirror (fst (s_ir st)) (snd (s_ir st))) ps in
        match valid with
        | c :: _ => Ok (State c (s_wedge st) true true)
        | [] => unmirrored
        end
      else unmirrored
  end.
(** src/bz.cpp 69-94. *)
Definition check (st : state) : outcome (bool * state) :=
  let* st := mirroring st in
  let* good := check_ir fuel b sort ps (fst first) (snd first) (fst (s_ir st)) (snd (s_ir st)) in
  Ok (good, st).
(** src/bz_wedge.cpp 414-427 and 433-443: the first of the normals for which the right volume is
    left.  A normal of length zero gives points that are not numbers, of which no vertex is on
    the inner side, src/geometry.hpp 389, and no faces are left. *)
Fixpoint halve (ir : poly) (goal : Q) (normals : list q3) : outcome (option (poly * q3)) :=
  match normals with
  | [] => Ok None
  | n :: normals =>
      let* part := (if qzero n then Ok (fst ir, [])
                    else one_cut fuel (fst ir) (snd ir) (plane_points_from_normal n (Q3 0 0 0))) in
      let* v := vol part in
      if Qeq_bool v goal then Ok (Some (part, n)) else halve ir goal normals
  end.
Fixpoint pair_normals (normals : list q3) : list q3 :=
  match normals with [] => [] | n :: r => map (qcross n) r ++ pair_normals r end.
(** src/bz_wedge.cpp 400-447.  The second loop, line 431, runs if the volume has not changed, that
    is if the first has found nothing, because the volume was not the right one before. *)
Definition divide_once (one_axis : bool) (st : state) : outcome state :=
  let* ir_volume := vol (s_ir st) in
  let* goal := goal_volume in
  if (qpos (ir_volume - goal) && one_axis) || Qeq_bool ir_volume (2 * goal) then
    let* bz_n := face_normals (fst first) (snd first) in
    let* wg_n := wedge_normals first (s_ir st) in
    let found x := match x with
                   | None => st
                   | Some (part, n) => State part (Some (wg_n ++ [qscale (-1) n])) (s_no_mirroring st) (s_hull st)
                   end in
    match bz_n with
    | [] => UB
    | _ =>
        let* x := halve (s_ir st) goal bz_n in
        match x with
        | Some _ => Ok (found x)
        | None => let* y := halve (s_ir st) goal (pair_normals bz_n) in Ok (found y)
        end
    end
  else Ok st.
(** src/bz_wedge.cpp 360-449: [normals] are the normals found, [one_axis] is whether there is
    one stationary axis.  A normal of length zero leaves no faces, as in [halve]. *)
Definition finish (st : state) (found : list q3 * bool) : outcome (bool * state) :=
  let (normals, one_axis) := found in
  let* st := match normals with
             | [] => Ok st
             | _ => let* ir := (if existsb qzero normals then Ok (fst first, [])
                                else cut fuel (fst first) (snd first) (map (fun n => plane_points_from_normal (qscale (-1) n) (Q3 0 0 0)) normals)) in
                    Ok (State ir (s_wedge st) (s_no_mirroring st) false)
             end in
  let* (good, st) := check st in
  let* st := (if good : bool then
                let* w := wedge_normals first (s_ir st) in
                Ok (State (s_ir st) (Some w) (s_no_mirroring st) (s_hull st))
              else Ok st) in
  let* st := (if ps_has_space_inversion ps then divide_once one_axis st else Ok st) in
  check st.
(** src/bz.hpp 165-183: one attempt after the other until one succeeds; there are eight. *)
Fixpoint attempts (st : state) (founds : list (list q3 * bool)) : outcome (bool * state) :=
  match founds with
  | [] => Ok (false, st)
  | found :: founds =>
      let* (good, st) := finish st found in
      if good : bool then Ok (true, st) else attempts st founds
  end.
(** src/bz.hpp 111, 158, 165-192. *)
Definition search (founds : list (list q3 * bool)) : outcome state :=
  let* (good, st) := attempts (State first None true false) founds in
  if good : bool then Ok st else Throw.
End Search.
