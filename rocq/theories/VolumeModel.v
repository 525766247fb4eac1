(** Model of the volume, the centroid and copies of a polyhedron, src/polyhedron_faces.hpp
    216-234, 253-269, 289-297, 405-411 and src/polyhedron_flex.hpp 146-148, 199-220.  Coordinates
    are rational, the arithmetic is exact and comparisons have no tolerance. *)
From Coq Require Import QArith.
From Verif Require Import Base Array2Model QPoint CutModel.
Local Open Scope outcome_scope.

(** The loops of src/polyhedron_faces.hpp 223-231 and 262-267: [each] is called with the first
    corner and two that follow each other.  [face.size() - 1] is not reached for no corners,
    since reading the first is undefined. *)
Definition fan {S} (each : q3 -> q3 -> q3 -> S -> S) (v : list q3) (faces : list (list nat)) (s : S) : outcome S :=
  foldM (fun s face =>
    let* i := rd face 0 in
    let* a := rd v i in
    foldM (fun s k =>
      let* j := rd face k in
      let* b := rd v j in
      let* l := rd face (k + 1) in
      let* c := rd v l in
      Ok (each a b c s)) (seq 1 (length face - 2)) s) faces s.
(** src/polyhedron_faces.hpp 253-269. *)
Definition volume (v : list q3) (faces : list (list nat)) : outcome Q :=
  let* s := fan (fun a b c s => s + qdot (qcross (qsub b a) (qsub c a)) a)%Q v faces 0%Q in
  Ok (s / 6)%Q.
(** src/polyhedron_faces.hpp 215-234: no row without points, None where zero is the divisor. *)
Definition qmul (a b : q3) : q3 := Q3 (qx a * qx b) (qy a * qy b) (qz a * qz b).
Definition centroid (v : list q3) (faces : list (list nat)) : outcome (list (option q3)) :=
  match v, faces with
  | [], [] => Ok []
  | [], _ => Throw
  | _, _ =>
    let* s := fan (fun a b c s =>
      let cr := qcross (qsub b a) (qsub c a) in
      let sq := qadd (qadd (qmul (qadd a b) (qadd a b)) (qmul (qadd b c) (qadd b c))) (qmul (qadd c a) (qadd c a)) in
      qadd s (qmul cr sq)) v faces (Q3 0 0 0) in
    let* vol := volume v faces in
    Ok [if Qeq_bool vol 0 then None else Some (qscale (/ (48 * vol)) s)]
  end.
(** src/polyhedron_faces.hpp 289-293, the square of the radius; None as for the centroid.
    Without points and faces it is outside of the model. *)
Definition circumsphere_radius2 (v : list q3) (faces : list (list nat)) : outcome (option Q) :=
  let* c := centroid v faces in
  match c with
  | [] => UB
  | None :: _ => Ok None
  | Some c :: _ =>
    match map (fun x => qdot (qsub x c) (qsub x c)) v with
    | [] => UB
    | d :: r => Ok (Some (fold_left (fun m y => if Qle_bool m y then y else m) r d))
    end
  end.
(** src/polyhedron_flex.hpp 146-148, src/polyhedron_faces.hpp 296, src/utilities.hpp 760-775. *)
Definition mirror (v : list q3) (faces : list (list nat)) : list q3 * list (list nat) :=
  (map (qscale (-1)) v, map (@rev nat) faces).
Definition translate (d : q3) (v : list q3) (faces : list (list nat)) : list q3 * list (list nat) :=
  (map (fun x => qadd x d) v, faces).
Definition centre (v : list q3) (faces : list (list nat)) : outcome (option (list q3 * list (list nat))) :=
  let* c := centroid v faces in
  match c with
  | [] => Ok (Some (v, faces))
  | None :: _ => Ok None
  | Some c :: _ => Ok (Some (map (fun x => qsub x c) v, faces))
  end.
(** src/polyhedron_faces.hpp 399-406: the points are moved, the plane is not. *)
Definition divide (fuel : nat) (v : list q3) (faces : list (list nat)) (t : cutter) : outcome (option (list q3 * list (list nat))) :=
  let* z := centroid v faces in
  match z with
  | [] => Ok (Some (v, faces))
  | None :: _ => Ok None
  | Some z :: _ =>
    let* st := cut fuel (map (fun x => qsub x z) v) faces [t] in
    Ok (Some (map (fun x => qadd x z) (fst st), snd st))
  end.
(** src/polyhedron_flex.hpp 199-211: the volume of the intersection is compared with zero
    after division by the sum of the volumes; None where this is zero. *)
Definition intersects (fuel : nat) (v : list q3) (faces : list (list nat)) (w : list q3) (gaces : list (list nat)) : outcome (option bool) :=
  let* st := intersection fuel v faces w gaces in
  let* o := volume (fst st) (snd st) in
  let* p := volume v faces in
  let* q := volume w gaces in
  Ok (if Qeq_bool (p + q) 0 then None else Some (negb (Qeq_bool (o / (p + q)) 0))).
