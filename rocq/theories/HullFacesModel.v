(** Model of finding the faces of a convex hull, src/geometry.hpp 275-365, 727-745, 748-834,
    861-882, src/polyhedron_faces.hpp 51-83, src/polyhedron_flex.hpp 22-29, 275-298.  As in
    HullModel, coordinates are integers, the arithmetic is exact and comparisons have no
    tolerance. *)
From Verif Require Import Base Array2Model MatSpec UtilModel PruneModel HullModel.
Local Open Scope outcome_scope.

(** src/geometry.hpp 727-745: for each point, the planes through it.  Without any plane the
    broadcast of no plane with one point has one element (src/subscript.hpp 464-479) and the
    first plane is read. *)
Definition on_plane (t : triple) (p : v3) : bool := let '(a, b, c) := t in (orient3d a b c p =? 0)%Z.
Definition planes_containing (planes : list triple) (pts : list v3) : outcome (list (list nat)) :=
  mapM (fun p => match planes with
                 | [] => UB
                 | _ => Ok (filter (fun j => match nth_error planes j with Some t => on_plane t p | None => false end) (seq 0 (length planes)))
                 end) pts.
(** Angles from 0 to 2 pi of vectors in a plane given by the coordinates along two
    perpendicular axes, as std::atan2 gives them after adding 2 pi to negative ones
    (src/geometry.hpp 329-330): which is the smaller one.  Stretching an axis changes
    angles but not which is smaller. *)
Definition upper (b : Z * Z) : bool := (0 <=? snd b)%Z.
Definition turn2 (b c : Z * Z) : Z := (fst b * snd c - snd b * fst c)%Z.
Definition angle_lt (b c : Z * Z) : bool :=
  if upper b then
    if upper c then (0 <? turn2 b c)%Z || ((turn2 b c =? 0)%Z && (0 <? fst b)%Z && (fst c <? 0)%Z) else true
  else if upper c then false else (0 <? turn2 b c)%Z.
(** [None] stands for the largest number; std::min_element finds the first smallest. *)
Definition opt_lt (x y : option (Z * Z)) : bool :=
  match x, y with Some b, Some c => angle_lt b c | Some _, None => true | None, _ => false end.
Fixpoint min_element (best : nat) (bv : option (Z * Z)) (i : nat) (l : list (option (Z * Z))) : nat :=
  match l with
  | [] => best
  | x :: r => if opt_lt x bv then min_element i x (S i) r else min_element best bv (S i) r
  end.
Definition min_index (l : list (option (Z * Z))) : nat := match l with [] => 0 | x :: r => min_element 0 x 1 r end.
(** src/geometry.hpp 777-781: [n] times the smallest angle, which is then made the largest. *)
Fixpoint pick_order (n : nat) (angles : list (option (Z * Z))) : list nat :=
  match n with
  | O => []
  | S n' => let k := min_index angles in k :: pick_order n' (upd angles k None)
  end.
(** src/geometry.hpp 311-334: coordinates of the vectors along the first one and along the
    perpendicular direction.  The vectors are multiplied by the square of the length of the
    normal; the axes are not divided by their lengths. *)
Definition pscale (k : Z) (a : v3) : v3 := V3 (k * v0 a) (k * v1 a) (k * v2 a).
Definition project (n v : v3) : v3 := psub (pscale (pdot n n) v) (pscale (pdot v n) n).
Definition winding (vectors : list v3) (n : v3) : outcome (list (Z * Z)) :=
  let* first := rd vectors 0 in
  let x := project n first in
  let y := pcross n x in
  Ok (map (fun v => (pdot (project n v) x, pdot (project n v) y)) vectors).
(** src/geometry.hpp 814-832: corners without a left turn are removed as long as there are
    more than three. *)
Fixpoint left_turns (fuel : nat) (pts : list v3) (n : v3) (sorted : list nat) (i : nat) : outcome (list nat) :=
  match fuel with
  | O => OutOfFuel
  | S f =>
    if (3 <? length sorted) && (i <? length sorted) then
      let s := length sorted in
      let* here := (let* v := rd sorted i in rd pts v) in
      let* before := (let* v := rd sorted ((s + i - 1) mod s) in rd pts v) in
      let* after := (let* v := rd sorted ((s + i + 1) mod s) in rd pts v) in
      if (0 <? pdot n (pcross (psub here before) (psub after here)))%Z then left_turns f pts n sorted (S i)
      else left_turns f pts n (firstn i sorted ++ skipn (S i) sorted) i
    else Ok sorted
  end.
(** src/geometry.hpp 748-834.  The vectors from the centre are multiplied by the number of
    points.  Angles that are not numbers, for a normal without direction, are not modelled
    and left as undefined; so is a face that only has points in its centre. *)
Definition psum (l : list v3) : v3 := fold_left (fun s v => V3 (v0 s + v0 v) (v1 s + v1 v) (v2 s + v2 v))%Z l (V3 0 0 0).
Definition veqb (a b : v3) : bool := ((v0 a =? v0 b) && (v1 a =? v1 b) && (v2 a =? v2 b))%Z.
Definition sort_polygon (t : triple) (face : list nat) (pts : list v3) : outcome (list nat) :=
  let* vectors := mapM (fun v => match nth_error pts v with Some p => Ok p | None => Throw end) face in
  let size := Z.of_nat (length vectors) in
  let sum := psum vectors in
  let good := map (fun v => negb (veqb (pscale size v) sum)) vectors in
  let pruned := pick good face in
  let vectors := map (fun v => psub (pscale size v) sum) (pick good vectors) in
  let n := triple_normal t in
  if veqb n (V3 0 0 0) then UB
  else
    let* angles := winding vectors n in
    let angles := match angles with [] => [] | _ :: r => None :: map Some r end in
    let perm := 0 :: pick_order (length pruned - 1) angles in
    let* sorted := mapM (rd pruned) perm in
    left_turns (S (length sorted)) pts n sorted 0.

(** src/geometry.hpp 337-365, not strict.  A length of one is [unit] units of the coordinates.
    The vectors from the centre are multiplied by the number of points.  [area_piece] is
    whether orient2d of the point at distance one along the first vector and two others is
    not zero, that is, p times the length of the first vector plus q.  When the first point
    is in the centre or the first three are on a line, the axes are not numbers and no sum is
    larger than zero. *)
Definition area_piece (unit size : Z) (x y b c : v3) : bool :=
  let p := (size * unit * (pdot b y - pdot c y))%Z in
  let q := (pdot b x * pdot c y - pdot b y * pdot c x)%Z in
  negb ((p * p * pdot x x =? q * q) && (p * q <=? 0))%Z.
Fixpoint area_pieces (unit size : Z) (x y : v3) (l : list v3) : bool :=
  match l with
  | b :: (c :: _) as r => area_piece unit size x y b c || area_pieces unit size x y r
  | _ => false
  end.
Definition has_area (unit : Z) (pts : list v3) : bool :=
  let size := Z.of_nat (length pts) in
  let sum := psum pts in
  match map (fun v => psub (pscale size v) sum) pts with
  | f0 :: f1 :: f2 :: r =>
    let z := normal3 f0 f1 f2 in
    if veqb f0 (V3 0 0 0) || veqb z (V3 0 0 0) then false
    else area_pieces unit size f0 (pcross z f0) (f1 :: f2 :: r)
  | _ => false
  end.

(** src/geometry.hpp 861-882. *)
Definition polygon_faces (unit : Z) (planes : list triple) (fpv : list (list nat)) (pts : list v3) : outcome (list (list nat)) :=
  let faces := invert_lists fpv in
  if negb (length planes =? length faces) then Throw
  else
    let* is_polygon := mapM (fun face => let* vs := mapM (fun v => match nth_error pts v with Some p => Ok p | None => Throw end) face in Ok (has_area unit vs)) faces in
    foldM (fun acc i =>
      let* b := rd is_polygon i in
      if b : bool then
        let* t := rd planes i in
        let* face := rd faces i in
        let* s := sort_polygon t face pts in
        Ok (acc ++ [s])
      else Ok acc) (seq 0 (length faces)) [].
(** src/polyhedron_faces.hpp 51-78.  The number for a point that is not found is the number
    of points, src/array2.tpp 815-840. *)
Fixpoint first_equal (vertices : list v3) (p : v3) : nat :=
  match vertices with [] => 0 | x :: r => if veqb x p then 0 else S (first_equal r p) end.
Definition hull_faces (unit : Z) (fuel : nat) (vertices : list v3) : outcome (list (list nat)) :=
  let* unique := extract v3 (is_unique v3 veqb vertices) vertices in
  let* planes := convex_hull_planes fuel unique in
  let* fpv := planes_containing planes unique in
  if 2 <? fold_left Nat.max (map (@length nat) fpv) 0 then
    let* faces := polygon_faces unit planes fpv unique in
    let* purged := polygon_face_vertex_purge v3 unique faces in
    match purged with
    | None => Ok faces
    | Some (left_, faces) => mapM (mapM (fun v => rd (map (first_equal vertices) left_) v)) faces
    end
  else Ok [].
(** src/polyhedron_flex.hpp 22-29, 275-298, with src/polyhedron_faces.hpp 142-149: the
    convex hull of points.  Numbers of vertices beyond the last one would be written out of
    bounds. *)
Definition convex_hull (unit : Z) (fuel : nat) (vertices : list v3) : outcome (list v3 * list (list nat)) :=
  let* faces := hull_faces unit fuel vertices in
  if existsb (existsb (fun v => length vertices <=? v)) faces then UB
  else
    let keep := map (fun i => existsb (fun f => has f i) faces) (seq 0 (length vertices)) in
    if forallb (fun b => b) keep then Ok (vertices, faces)
    else
      let indexes := renumber keep 0 (length vertices) in
      let* faces := mapM (mapM (rd indexes)) faces in
      let* vertices := extract v3 keep vertices in
      Ok (vertices, faces).
