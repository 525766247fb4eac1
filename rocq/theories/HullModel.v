(** Model of the construction of the convex hull of a set of points, src/geometry.hpp
    40-165, 249-252, 650-693.

    Coordinates are integers: any finite set of floating point numbers is one up to a common
    power of two.  The arithmetic is exact and comparisons have no tolerance. *)
From Coq Require Import NArith.
From Verif Require Import Base Array2Model MatSpec UtilModel PruneModel.
Local Open Scope outcome_scope.

Section Points.
Local Open Scope Z_scope.
(** Difference, scalar and vector product of rows: src/array_functions.hpp 41-53, 168-188,
    224-240; src/utilities.tpp vector_cross. *)
Definition psub (a b : v3) : v3 := V3 (v0 a - v0 b) (v1 a - v1 b) (v2 a - v2 b).
Definition pdot (a b : v3) : Z := v0 a * v0 b + v1 a * v1 b + v2 a * v2 b.
Definition pcross (a b : v3) : v3 :=
  V3 (v1 a * v2 b - v2 a * v1 b) (v2 a * v0 b - v0 a * v2 b) (v0 a * v1 b - v1 a * v0 b).
(** src/geometry.hpp 118-138, for one plane and one point. *)
Definition orient3d (a b c d : v3) : Z := pdot (psub a d) (pcross (psub b d) (psub c d)).
(** src/geometry.hpp 146-183, for one triple: three two-dimensional predicates. *)
Definition predicate2 (ax ay bx by_ cx cy : Z) : Z := (ax - cx) * (by_ - cy) - (ay - cy) * (bx - cx).
Definition colinear (a b c : v3) : bool :=
  (predicate2 (v0 a) (v1 a) (v0 b) (v1 b) (v0 c) (v1 c) =? 0) &&
  (predicate2 (v0 a) (v2 a) (v0 b) (v2 b) (v0 c) (v2 c) =? 0) &&
  (predicate2 (v1 a) (v2 a) (v1 b) (v2 b) (v1 c) (v2 c) =? 0).
(** src/geometry.hpp 249-252, before the division by the length. *)
Definition normal3 (a b c : v3) : v3 := pcross (psub b a) (psub c b).
(** Two normals divided by their lengths are equal: they are parallel and point the same
    way. *)
Definition same_unit (n m : v3) : bool :=
  let x := pcross n m in (v0 x =? 0) && (v1 x =? 0) && (v2 x =? 0) && (0 <? pdot n m).
End Points.

Definition triple := (v3 * v3 * v3)%type.
Definition triple_normal (t : triple) : v3 := let '(a, b, c) := t in normal3 a b c.

(** src/geometry.hpp 666-672: the loop over the other points, left early. *)
Fixpoint sides (pts : list v3) (a b c : v3) (i j k : nat) (rs : list nat) (positive negative : bool) : outcome (bool * bool) :=
  match rs with
  | [] => Ok (positive, negative)
  | r :: rest =>
    if positive || negative then
      if (r =? i) || (r =? j) || (r =? k) then sides pts a b c i j k rest positive negative
      else
        let* p := rd pts r in
        let d := orient3d a b c p in
        sides pts a b c i j k rest (positive && (0 <=? d)%Z) (negative && (d <=? 0)%Z)
    else Ok (positive, negative)
  end.
(** src/geometry.hpp 662-682: one triple of points.  The planes found so far are written to
    arrays with room for [room] rows. *)
Definition hull_step (pts : list v3) (room : N) (i j : nat) (acc : list triple) (k : nat) : outcome (list triple) :=
  let* a := rd pts i in
  let* b := rd pts j in
  let* c := rd pts k in
  if colinear a b c then Ok acc
  else
    let* (positive, negative) := sides pts a b c i j k (seq 0 (length pts)) true true in
    if xorb positive negative then
      if (N.of_nat (length acc) <? room)%N then Ok (acc ++ [if positive then (a, b, c) else (b, a, c)]) else UB
    else Ok acc.
(** src/geometry.hpp 650-693.  [ind_t] has 32 bits.  The estimate of the binomial coefficient
    after an overflow is not modelled; it is unknown whether the cast of it is defined. *)
Definition convex_hull_planes (fuel : nat) (pts : list v3) : outcome (list triple) :=
  let no := length pts in
  if no <? 4 then Throw
  else
    let* bc := binomial_coefficient fuel (N.of_nat no) 3 in
    match bc with
    | None => UB
    | Some bc =>
      if (2 ^ 32 - 1 <? bc)%N then Throw
      else
        let* planes := foldM (fun acc i =>
          foldM (fun acc j =>
            foldM (hull_step pts bc i j) (seq (S j) (no - S j)) acc)
            (seq (S i) (no - 1 - S i)) acc)
          (seq 0 (no - 2)) [] in
        if (bc <? N.of_nat (length planes))%N then Throw
        else extract triple (is_unique v3 same_unit (map triple_normal planes)) planes
    end.
