(** Model of the interpolation weights of CubeNode and PolyNode (src/trellis_node.hpp) and
    of NestLeaf and NestNode (src/nest.hpp).  Coordinates are rationals and "approximately
    equal" is equality; Cartesian coordinates, as for arrays without a lattice. *)
From Coq Require Import QArith.
From Verif Require Import Base TrellisModel.
Local Open Scope nat_scope.
Local Open Scope outcome_scope.

Notation point := (Q * Q * Q)%type.
Definition px (p : point) : Q := fst (fst p).
Definition py (p : point) : Q := snd (fst p).
Definition pz (p : point) : Q := snd p.
Definition psub (a b : point) : point := (px a - px b, py a - py b, pz a - pz b)%Q.
Definition qabs (q : Q) : Q := if Qle_bool 0 q then q else (- q)%Q.

(** The result of looking for weights: those found, a report that the point is elsewhere,
    or a division by zero, after which the numbers are infinite or not numbers. *)
Inductive located := Found (iw : list (nat * Q)) | Elsewhere | NotNumber.

(** ** CubeNode::indices_weights, src/trellis_node.hpp 130-149.  [vi] holds eight indices
    ordered (000) (100) (110) (010) (101) (001) (011) (111); extract throws for an index
    outside of the vertices. *)
Fixpoint extract (vs : list point) (vi : list nat) : outcome (list point) :=
  match vi with
  | [] => Ok []
  | i :: r => match nth_error vs i with
              | Some v => let* t := extract vs r in Ok (v :: t)
              | None => Throw
              end
  end.
Definition absprod (p : point) : Q := (qabs (px p) * qabs (py p) * qabs (pz p))%Q.
Definition positives (l : list (nat * Q)) : list (nat * Q) := filter (fun e => qgt (snd e) 0) l.
Definition cube_weights (vs : list point) (vi : list nat) (x : point) (should_contain : bool) : outcome located :=
  let* nv := extract vs vi in
  let* a := rd nv 0 in
  let* b := rd nv 7 in
  let vol := absprod (psub a b) in
  if Qeq_bool vol 0 then Ok NotNumber
  else
    let w := map (fun v => (absprod (psub x v) / vol)%Q) nv in
    if existsb (fun q => qgt q 1) w && negb should_contain then Ok Elsewhere
    else Ok (Found (positives (combine (rev vi) w))).

(** ** Orientation.  src/geometry.hpp 118-138; orient3d of the predicates library used by
    nest.hpp computes the same determinant. *)
Definition dot3 (a b : point) : Q := (px a * px b + py a * py b + pz a * pz b)%Q.
Definition cross3 (a b : point) : point :=
  (py a * pz b - pz a * py b, pz a * px b - px a * pz b, px a * py b - py a * px b)%Q.
Definition orient3d (a b c d : point) : Q := dot3 (psub a d) (cross3 (psub b d) (psub c d)).

(** ** Tetrahedra.  The indices of the corners, the centre and radius of the sphere through
    them, the volume. *)
Record tet := Tet { corner : nat * nat * nat * nat; centre : point; radius : Q; vol : Q }.
(** src/trellis_node.hpp 342-354 and src/nest.hpp 115-123; the sign of the value returned. *)
Definition might_contain (t : tet) (x : point) : Q :=
  let v := psub (centre t) x in
  let d2 := dot3 v v in
  let r2 := (radius t * radius t)%Q in
  if qgt r2 d2 || Qeq_bool d2 r2 then 0%Q else (- d2)%Q.
(** src/trellis_node.hpp 324-328 and src/nest.hpp 82-86. *)
Definition raw_weights (t : tet) (vs : list point) (x : point) : outcome (option (Q * Q * Q * Q)) :=
  let '(i0, i1, i2, i3) := corner t in
  let* v0 := rd vs i0 in let* v1 := rd vs i1 in let* v2 := rd vs i2 in let* v3 := rd vs i3 in
  let vol6 := (vol t * 6)%Q in
  if Qeq_bool vol6 0 then Ok None
  else Ok (Some (orient3d x v1 v2 v3 / vol6, orient3d v0 x v2 v3 / vol6,
                 orient3d v0 v1 x v3 / vol6, orient3d v0 v1 v2 x / vol6)%Q).
Definition qmin (a b : Q) : Q := if qgt a b then b else a.
Definition any_negative (w : Q * Q * Q * Q) : bool :=
  let '(a, b, c, d) := w in qgt 0 a || qgt 0 b || qgt 0 c || qgt 0 d.
Definition min_weight (w : Q * Q * Q * Q) : Q := let '(a, b, c, d) := w in qmin (qmin (qmin a b) c) d.
(** src/trellis_node.hpp 308-332: the value returned and the weights, unless the sphere
    already excludes the point; [None] after a division by zero. *)
Definition contains_value (t : tet) (vs : list point) (x : point) (shortcut : bool) :
    outcome (option (Q * option (Q * Q * Q * Q))) :=
  let away := if shortcut then might_contain t x else 0%Q in
  if qgt 0 away then Ok (Some (away, None))
  else
    let* w := raw_weights t vs x in
    match w with
    | None => Ok None
    | Some w => Ok (Some ((if any_negative w then min_weight w else 0%Q), Some w))
    end.
Definition nonzero_weights (t : tet) (w : Q * Q * Q * Q) : list (nat * Q) :=
  let '(i0, i1, i2, i3) := corner t in
  let '(a, b, c, d) := w in
  filter (fun e => negb (Qeq_bool (snd e) 0)) [(i0, a); (i1, b); (i2, c); (i3, d)].

(** The position of the first largest element (std::max_element). *)
Fixpoint argmax_from (l : list Q) (pos best : nat) (value : Q) : nat :=
  match l with
  | [] => best
  | q :: r => if qgt q value then argmax_from r (S pos) pos q else argmax_from r (S pos) best value
  end.
Definition argmax (l : list Q) : nat := match l with [] => 0 | q :: r => argmax_from r 1 0 q end.

(** src/trellis_node.hpp 273-305.  The loop leaves at the first tetrahedron containing the
    point; [seen] collects most_neg. *)
Fixpoint poly_loop (ts : list tet) (vs : list point) (x : point) (seen : list Q) :
    outcome (located + list Q) :=
  match ts with
  | [] => Ok (inr seen)
  | t :: r =>
    let* v := contains_value t vs x true in
    match v with
    | None => Ok (inl NotNumber)
    | Some (m, w) =>
      if Qle_bool 0 m
      then match w with Some w => Ok (inl (Found (nonzero_weights t w))) | None => UB end
      else poly_loop r vs x (seen ++ [m])
    end
  end.
Definition poly_weights (ts : list tet) (vs : list point) (x : point) (should_contain : bool) : outcome located :=
  let* r := poly_loop ts vs x [] in
  match r with
  | inl l => Ok l
  | inr seen =>
    if should_contain then
      let i := argmax seen in
      let* t := rd ts i in (* for an empty node: reads vol_t[0] and vi_t[0] *)
      let* v := contains_value t vs x false in
      match v with
      | None => Ok NotNumber
      | Some (m, w) =>
        if qgt m 0 then Throw
        else match w with Some w => Ok (Found (nonzero_weights t w)) | None => UB end
      end
    else Ok Elsewhere
  end.

(** ** NestLeaf.  src/nest.hpp 78-110: all weights are -1 when the sphere excludes the point. *)
Definition leaf_weights (t : tet) (vs : list point) (x : point) : outcome (option (Q * Q * Q * Q)) :=
  if qgt 0 (might_contain t x) then Ok (Some (-1, -1, -1, -1)%Q) else raw_weights t vs x.
Definition none_negative (w : Q * Q * Q * Q) : bool := negb (any_negative w).
Definition leaf_contains (t : tet) (vs : list point) (x : point) : outcome (option bool) :=
  if qgt 0 (might_contain t x) then Ok (Some false)
  else let* w := raw_weights t vs x in Ok (option_map none_negative w).

(** ** NestNode.  src/nest.hpp 134-150. *)
Inductive nest := Nest (boundary : tet) (branches : list nest).
Definition boundary (n : nest) : tet := let 'Nest b _ := n in b.
Definition branches (n : nest) : list nest := let 'Nest _ l := n in l.

(** src/nest.hpp 176-194: the queue; branches are never the root. *)
Definition four (t : tet) (w : Q * Q * Q * Q) : list (nat * Q) :=
  let '(i0, i1, i2, i3) := corner t in let '(a, b, c, d) := w in [(i0, a); (i1, b); (i2, c); (i3, d)].
Fixpoint nest_loop (fuel : nat) (work : list nest) (vs : list point) (x : point)
    (solutions : list (list (nat * Q))) : outcome (option (list (list (nat * Q)))) :=
  match work with
  | [] => Ok (Some solutions)
  | n :: rest =>
    match fuel with
    | O => OutOfFuel
    | S fuel =>
      let* w := leaf_weights (boundary n) vs x in
      match w with
      | None => Ok None
      | Some w =>
        if none_negative w then
          match branches n with
          | [] => nest_loop fuel rest vs x (solutions ++ [four (boundary n) w])
          | bs => nest_loop fuel (rest ++ bs) vs x solutions
          end
        else nest_loop fuel rest vs x solutions
      end
    end
  end.
(** src/nest.hpp 198-205. *)
Fixpoint pick_best (l : list (list (nat * Q))) (pos best : nat) : nat :=
  match l with
  | [] => best
  | s :: r => pick_best r (S pos) (if forallb (fun e => qgt (snd e) 0) s then pos else best)
  end.
(** src/nest.hpp 207-220: a (nearly) zero weight is added to the largest one. *)
Definition is_zero (q : Q) : bool := Qeq_bool q 0.
Fixpoint max_at (sol : list (nat * Q)) (js : list nat) (m : nat) : nat :=
  match js with
  | [] => m
  | j :: r =>
    let sj := snd (nth j sol (0, 0%Q)) in
    max_at sol r (if negb (is_zero sj) && qgt sj (snd (nth m sol (0, 0%Q))) then j else m)
  end.
Definition settle (sol : list (nat * Q)) (i : nat) : list (nat * Q) :=
  let si := snd (nth i sol (0, 0%Q)) in
  if is_zero si then
    let m := max_at sol [0; 1; 2; 3] 0 in
    let e := nth m sol (0, 0%Q) in
    upd sol m (fst e, (snd e + si)%Q)
  else sol.
Fixpoint nest_size (n : nest) : nat :=
  let 'Nest _ l := n in S (fold_right (fun m s => nest_size m + s) 0 l).
(** src/nest.hpp 165-222; [top] are the branches of the root. *)
Definition nest_weights (top : list nest) (vs : list point) (x : point) : outcome located :=
  let* s := nest_loop (fold_right (fun m s => nest_size m + s) 0 top) top vs x [] in
  match s with
  | None => Ok NotNumber
  | Some [] => Ok (Found [])
  | Some sols =>
    let best := if 1 <? length sols then pick_best sols 0 0 else 0 in
    let* sol := rd sols best in
    let sol := fold_left settle [0; 1; 2; 3] sol in
    Ok (Found (filter (fun e => negb (is_zero (snd e))) sol))
  end.
