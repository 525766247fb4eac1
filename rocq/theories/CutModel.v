(** Model of cutting a polyhedron by planes, src/polyhedron_faces.hpp 336-520,
    src/polyhedron_faces.cpp 48-58, 93-102, src/geometry.hpp 376-392, 411-418, 469-494,
    605-651, 947-976, 1097-1112 and src/utilities.hpp 631-655, 695-713.  Coordinates are
    rational numbers, the arithmetic is exact and comparisons have no tolerance. *)
From Coq Require Import QArith.
From Verif Require Import Base Array2Model MatSpec UtilModel PruneModel HullModel HullFacesModel QPoint.
Local Open Scope outcome_scope.

Definition qsub (a b : q3) : q3 := Q3 (qx a - qx b) (qy a - qy b) (qz a - qz b).
Definition qadd (a b : q3) : q3 := Q3 (qx a + qx b) (qy a + qy b) (qz a + qz b).
Definition qscale (k : Q) (a : q3) : q3 := Q3 (k * qx a) (k * qy a) (k * qz a).
Definition qdot (a b : q3) : Q := qx a * qx b + qy a * qy b + qz a * qz b.
Definition qcross (a b : q3) : q3 :=
  Q3 (qy a * qz b - qz a * qy b) (qz a * qx b - qx a * qz b) (qx a * qy b - qy a * qx b).
Definition qeqb (a b : q3) : bool := Qeq_bool (qx a) (qx b) && Qeq_bool (qy a) (qy b) && Qeq_bool (qz a) (qz b).
Definition qpos (x : Q) : bool := negb (Qle_bool x 0).
Definition qneg (x : Q) : bool := negb (Qle_bool 0 x).
Definition cutter := (q3 * q3 * q3)%type.
(** src/geometry.hpp 117-138 and orient3d; positive for points below the plane. *)
Definition orient (t : cutter) (d : q3) : Q := let '(a, b, c) := t in qdot (qsub a d) (qcross (qsub b d) (qsub c d)).
(** src/geometry.hpp 248-252, not divided by its length. *)
Definition face_normal (a b c : q3) : q3 := qcross (qsub b a) (qsub c b).
Definition cutter_normal (t : cutter) : q3 := let '(a, b, c) := t in face_normal a b c.
Definition first_three (face : list nat) : outcome (nat * nat * nat) :=
  match face with i :: j :: k :: _ => Ok (i, j, k) | _ => UB end.

(** src/polyhedron_faces.hpp 348-371: the last face in the plane, with its normal on the
    same side.  For a plane without normal the comparison is with not-a-number and false. *)
Definition in_plane (v : list q3) (t : cutter) (face : list nat) : outcome bool :=
  let* ps := mapM (rd v) face in
  if forallb (fun p => Qeq_bool (orient t p) 0) ps then
    let* (ijk) := first_three face in
    let '(i, j, k) := ijk in
    let* a := rd v i in let* b := rd v j in let* c := rd v k in
    Ok (qpos (qdot (face_normal a b c) (cutter_normal t)))
  else Ok false.
Definition face_index (v : list q3) (faces : list (list nat)) (t : cutter) : outcome nat :=
  foldM (fun m i => let* face := rd faces i in let* b := in_plane v t face in Ok (if b : bool then i else m))
    (seq 0%nat (length faces)) (length faces).
(** src/polyhedron_faces.hpp 379-403. *)
Definition none_beyond (v : list q3) (faces : list (list nat)) (t : cutter) : outcome bool :=
  let* m := face_index v faces t in
  let f := match nth_error faces m with
           | Some face => filter (fun i => negb (has face i)) (seq 0%nat (length v))
           | None => seq 0%nat (length v) end in
  let* ps := mapM (rd v) f in
  Ok (forallb (fun p => qneg (orient t p)) ps).

Local Open Scope nat_scope.
(** src/polyhedron_faces.cpp 48-58. *)
Definition face_edges (face : list nat) : list (nat * nat) :=
  map (fun k => (nth k face 0, nth (S k mod length face) face 0)) (seq 0 (length face)).
(** src/geometry.hpp 469-494. *)
Definition cut_edges (keep : list bool) (edges : list (list (nat * nat))) : outcome (list (nat * nat * (nat * nat))) :=
  foldM (fun out j =>
    let* kj := rd keep j in
    if kj : bool then Ok out
    else foldM (fun out first =>
      let* es := rd edges first in
      foldM (fun out (edge : nat * nat) =>
        if fst edge =? j then
          let* ks := rd keep (snd edge) in
          if ks : bool then
            foldM (fun out second =>
              if second =? first then Ok out
              else
                let* os := rd edges second in
                Ok (out ++ map (fun _ => (first, second, edge)) (filter (fun oppo => (fst oppo =? snd edge) && (snd oppo =? j)) os)))
              (seq 0 (length edges)) out
          else Ok out
        else Ok out) es out) (seq 0 (length edges)) out)
    (seq 0 (length keep)) [].
(** src/geometry.hpp 610-651.  Fractions are reduced. *)
Definition reduce (a : q3) : q3 := Q3 (Qred (qx a)) (Qred (qy a)) (Qred (qz a)).
Definition crossing (t : cutter) (p q : q3) : option q3 :=
  let '(a, _, _) := t in
  let n := cutter_normal t in
  let u := qsub q p in
  let denominator := qdot n u in
  if Qeq_bool denominator 0%Q then None
  else
    let factor := (qdot n (qsub a p) / denominator)%Q in
    Some (if qneg factor then p else if qpos (factor - 1)%Q then q else reduce (qadd p (qscale factor u))).
Definition intersections (t : cutter) (v : list q3) (edges : list (nat * nat * (nat * nat))) : outcome (list (nat * nat * (nat * nat) * q3)) :=
  foldM (fun out e =>
    let* p := rd v (fst (snd e)) in
    let* q := rd v (snd (snd e)) in
    Ok (match crossing t p q with Some x => out ++ [(e, x)] | None => out end)) edges [].

(** src/utilities.hpp 631-655. *)
Definition add_if_missing (l : list nat) (x : nat) : list nat := if has l x then l else l ++ [x].
Fixpoint insert_after (l : list nat) (first before after x : nat) : outcome (list nat) :=
  match l with
  | [] => Throw
  | y :: r =>
    if y =? before then
      if match r with [] => first | z :: _ => z end =? after then Ok (y :: x :: r) else Throw
    else let* r := insert_after r first before after x in Ok (y :: r)
  end.
Definition add_between (l : list nat) (before after x : nat) : outcome (list nat) :=
  if has l x then Ok l else insert_after l (nth 0 l 0) before after x.
Fixpoint first_row (v : list q3) (p : q3) : nat :=
  match v with [] => 0 | x :: r => if qeqb x p then 0 else S (first_row r p) end.

(** src/polyhedron_faces.hpp 428-467: points, faces, flags, the new face and how many points
    were added. *)
Definition cut_state := (list q3 * list (list nat) * list bool * list nat * nat)%type.
Definition cut_step (before : nat) (st : cut_state) (it : nat * nat * (nat * nat) * q3) : outcome cut_state :=
  let '(v, f, keep, new_face, count) := st in
  let '((first, second, edge), at_) := it in
  let index := first_row v at_ in
  let keep := if index <? length keep then upd keep index true else keep in
  if (before <=? index) && (index <? length v) then Throw
  else
    let '(v', count) := if index =? length v then (v ++ [at_], S count) else (v, count) in
    let* f1 := rd f first in
    let* f1 := add_between f1 (fst edge) (snd edge) index in
    let* f := wr f first f1 in
    let* f2 := rd f second in
    let* f2 := add_between f2 (snd edge) (fst edge) index in
    let* f := wr f second f2 in
    Ok (v', f, keep, add_if_missing new_face index, count).

(** src/utilities.hpp 695-713. *)
Fixpoint erase_first (l : list nat) (y : nat) : option (list nat) :=
  match l with [] => None | x :: r => if x =? y then Some r else option_map (cons x) (erase_first r y) end.
Fixpoint erase_all (x : list nat) (ys : list nat) : bool :=
  match ys with [] => true | y :: r => match erase_first x y with None => false | Some x => erase_all x r end end.
Definition unordered_in (l : list nat) (lists : list (list nat)) : bool :=
  existsb (fun li => (length li =? length l) && erase_all li l) lists.
(** src/geometry.hpp 1097-1110. *)
Definition face_not_in (candidate : list nat) (faces : list (list nat)) : bool :=
  if unordered_in candidate faces then false
  else forallb (fun face => negb (2 <? length (filter (has face) candidate))) faces.

(** The sort of HullFacesModel is for integer coordinates: those here are multiplied by a
    common denominator, which changes no comparison. *)
Definition denominators (l : list q3) : Z :=
  fold_left (fun d p => d * Zpos (Qden (qx p)) * Zpos (Qden (qy p)) * Zpos (Qden (qz p)))%Z l 1%Z.
Definition to_int (d : Z) (x : Q) : Z := (Qnum x * (d / Zpos (Qden x)))%Z.
Definition to_ints (d : Z) (p : q3) : v3 := V3 (to_int d (qx p)) (to_int d (qy p)) (to_int d (qz p)).
Definition sort_face (t : cutter) (face : list nat) (v : list q3) : outcome (list nat) :=
  let '(a, b, c) := t in
  let d := denominators (a :: b :: c :: v) in
  sort_polygon (to_ints d a, to_ints d b, to_ints d c) face (map (to_ints d) v).

(** src/geometry.hpp 947-976: a corner is kept if the directions of the edges before and
    after it differ.  An edge without length has no direction, all comparisons are false. *)
Definition zero3 (a : q3) : bool := qeqb a (Q3 0 0 0).
Definition turns (e0 e1 : q3) : bool :=
  negb (zero3 e0) && negb (zero3 e1) && negb (zero3 (qcross e0 e1) && qpos (qdot e0 e1)).
Fixpoint keep_turns (v : list q3) (face : list nat) (e0 : q3) (is : list nat) : outcome (list nat) :=
  match is with
  | [] => Ok []
  | i :: r =>
    let* here := (let* x := rd face i in rd v x) in
    let* next := (let* x := rd face (S i mod length face) in rd v x) in
    let e1 := qsub next here in
    let* rest := keep_turns v face e1 r in
    let* x := rd face i in
    Ok (if turns e0 e1 then x :: rest else rest)
  end.
Definition not_middle (v : list q3) (face : list nat) : outcome (list nat) :=
  match face with
  | i :: j :: _ :: _ =>
    let* a := rd v i in
    let* b := rd v j in
    let* rest := keep_turns v face (qsub b a) (seq 1 (length face - 1)) in
    Ok (i :: rest)
  | _ => Ok []
  end.
Definition remove_middle (v : list q3) (faces : list (list nat)) : outcome (list (list nat)) :=
  let* l := mapM (not_middle v) faces in Ok (filter (fun f => 2 <? length f) l).

(** src/polyhedron_faces.hpp 410-501. *)
Definition one_cut (fuel : nat) (v : list q3) (faces : list (list nat)) (t : cutter) : outcome (list q3 * list (list nat)) :=
  let* none := none_beyond v faces t in
  if none : bool then Ok (v, [])
  else
    let keep := map (fun p => Qle_bool 0%Q (orient t p)) v in
    if forallb (fun b => b) keep then Ok (v, faces)
    else if forallb negb keep then Ok (v, [])
    else
      let* edges := cut_edges keep (map face_edges faces) in
      let* its := intersections t v edges in
      let* st := foldM (cut_step (length v)) its (v, faces, keep, [], 0) in
      let '(v', f, keep, new_face, count) := st in
      let* f := (if (2 <? length new_face) && face_not_in new_face faces then
                   let* s := sort_face t new_face v' in Ok (f ++ [s])
                 else Ok f) in
      if forallb (fun b => b) keep then Ok (v, faces)
      else
        let keep := keep ++ repeat true count in
        let* (v', f) := remove_points q3 (fun _ _ _ one => one) keep v' f in
        let* f := remove_middle v' f in
        let f := filter (fun face => negb (length (nodup Nat.eq_dec face) <? 3)) f in
        let* f := dangling_loop fuel (length v') f in
        remove_faceless q3 v' f.
(** src/polyhedron_faces.hpp 503-519. *)
Definition cut (fuel : nat) (v : list q3) (faces : list (list nat)) (planes : list cutter) : outcome (list q3 * list (list nat)) :=
  foldM (fun st t => one_cut fuel (fst st) (snd st) t) planes (v, faces).
(** src/polyhedron_faces.cpp 93-102, src/polyhedron_faces.hpp 224-232, src/polyhedron_flex.hpp 212-215. *)
Definition face_planes (v : list q3) (faces : list (list nat)) : outcome (list cutter) :=
  mapM (fun face => let* (ijk) := first_three face in let '(i, j, k) := ijk in
                    let* a := rd v i in let* b := rd v j in let* c := rd v k in Ok (a, b, c)) faces.
Definition intersection (fuel : nat) (v : list q3) (faces : list (list nat)) (w : list q3) (gaces : list (list nat)) : outcome (list q3 * list (list nat)) :=
  let* planes := face_planes w gaces in cut fuel v faces planes.
(** src/polyhedron_faces.hpp 313-336, src/geometry.hpp 411-418: without faces the smallest of
    no numbers is read. *)
Definition contains (v : list q3) (faces : list (list nat)) (xs : list q3) : outcome (list bool) :=
  let* planes := face_planes v faces in
  mapM (fun x => match map (fun t => orient t x) planes with
                 | [] => UB
                 | o :: r => Ok (Qle_bool 0%Q (fold_left (fun m y => if Qle_bool m y then m else y) r o))
                 end) xs.
