(** Model of the choice of the normals that cut the first Brillouin zone in the search for the
    irreducible wedge, src/bz_wedge.cpp 21-370, and of the stationary axis of an operation,
    src/pointgroup.cpp 162-178, 533-552, 588-595 and 664-672.

    Everything is in the xyz frame, as in ZoneModel and ApplyModel: [basis] are the vectors of
    the reciprocal lattice, right handed, the factor 2 pi of the direct lattice is left out, and
    normals keep their lengths.  Rational coordinates, exact arithmetic, no tolerances.  The
    special points of the zone, line 64, and the operations of order above one in the order
    of line 86, which [std::sort] does not fix, are arguments. *)
From Coq Require Import QArith Qabs.
From Verif Require Import Base Array2Model MatSpec PruneModel IsometryModel NeighbourModel QPoint CutModel ZoneModel ApplyModel WedgeModel.
Local Open Scope outcome_scope.
Local Open Scope nat_scope.

(** src/pointgroup.cpp 162-178. *)
Definition rot_axes : list v3 := map (fun t => let '(i, j, k) := t in V3 i j k)
  [( 1, 0, 0);( 0, 1, 0);( 0, 0, 1);( 0, 1, 1);( 1, 0, 1);
   ( 1, 1, 0);( 0, 1,-1);(-1, 0, 1);( 1,-1, 0);( 1, 1, 1);
   (-1, 1, 1);( 1,-1, 1);( 1, 1,-1);( 0, 1, 2);( 2, 0, 1);
   ( 1, 2, 0);( 0, 2, 1);( 1, 0, 2);( 2, 1, 0);( 0,-1, 2);
   ( 2, 0,-1);(-1, 2, 0);( 0,-2, 1);( 1, 0,-2);(-2, 1, 0);
   ( 2, 1, 1);( 1, 2, 1);( 1, 1, 2);( 2,-1,-1);(-1, 2,-1);
   (-1,-1, 2);( 2, 1,-1);(-1, 2, 1);( 1,-1, 2);( 2,-1, 1);
   ( 1, 2,-1);(-1, 1, 2);( 3, 1, 2);( 2, 3, 1);( 1, 2, 3);
   ( 3, 2, 1);( 1, 3, 2);( 2, 1, 3);( 3,-1, 2);( 2, 3,-1);
   (-1, 2, 3);( 3,-2, 1);( 1, 3,-2);(-2, 1, 3);( 3,-1,-2);
   (-2, 3,-1);(-1,-2, 3);( 3,-2,-1);(-1, 3,-2);(-2,-1, 3);
   ( 3, 1,-2);(-2, 3, 1);( 1,-2, 3);( 3, 2,-1);(-1, 3, 2);
   ( 2,-1, 3);( 1, 1, 3);(-1, 1, 3);( 1,-1, 3);(-1,-1, 3);
   ( 1, 3, 1);(-1, 3, 1);( 1, 3,-1);(-1, 3,-1);( 3, 1, 1);
   ( 3, 1,-1);( 3,-1, 1);( 3,-1,-1)]%Z.
Definition v3_eqb (x y : v3) : bool := ((v0 x =? v0 y) && (v1 x =? v1 y) && (v2 x =? v2 y))%Z.
Definition m3_eqb (x y : m3) : bool := v3_eqb (row0 x) (row0 y) && v3_eqb (row1 x) (row1 y) && v3_eqb (row2 x) (row2 y).
(** src/pointgroup.cpp 588-595. *)
Definition proper_rotation (r : m3) : m3 := if (det3 r =? -1)%Z then mul3 (M3 (-1) 0 0 0 (-1) 0 0 0 (-1)) r else r.
(** src/pointgroup.cpp 533-552 and 664-672, src/pointsymmetry.cpp 282-286: three zeros if there
    is no axis. *)
Definition axis (r : m3) : v3 :=
  let p := proper_rotation r in
  if m3_eqb p I3 then V3 0 0 0
  else match find (fun x => v3_eqb (act3 p x) x) rot_axes with Some x => x | None => V3 0 0 0 end.

(** src/array_lvec_methods.tpp 40-51: a vector of the direct lattice. *)
Definition from_uvw (b : basis) (z : v3) : q3 :=
  let '(u, v, w) := b in
  qscale (/ qdot u (qcross v w))
    (qadd (qadd (qscale (inject_Z (v0 z)) (qcross v w)) (qscale (inject_Z (v1 z)) (qcross w u))) (qscale (inject_Z (v2 z)) (qcross u v))).
(** src/array2.tpp 610-635: exactly [n] turns; line 616, compared component by component in the
    units of the lattice there. *)
Fixpoint turned (b : basis) (r : m3) (n : nat) (x : q3) : q3 :=
  match n with O => x | S n => rotate b r (turned b r n x) end.

(** What the three stages change: the special points still kept, which operations are unused and
    the normals found. *)
Record found := Found { f_special : list q3; f_unused : list bool; f_cuts : list q3 }.

Section Cuts.
Variables (b : basis) (ps : list m3).
Definition order_of (r : m3) : nat := Z.to_nat (rotation_order (l9 r)).
Definition axis_of (r : m3) : q3 := from_uvw b (axis r).
(** src/bz_wedge.cpp 99-102: rows of the array of normals. *)
Definition n_expected : nat := fold_left (fun n r => n + (if order_of r =? 2 then 1 else 2)) ps 0.
(** src/array2.tpp 173-187: a row beyond the last is written out of bounds. *)
Definition push (cuts : list q3) (n : q3) : outcome (list q3) :=
  if length cuts <? n_expected then Ok (cuts ++ [n]) else UB.
(** The points for which the flag is set are extracted, src/bz_wedge.cpp 148-151 and 358-362. *)
Definition use (i : nat) (keep : list bool) (ns : list q3) (st : found) : outcome found :=
  let* unused := wr (f_unused st) i false in
  let* cuts := foldM push ns (f_cuts st) in
  Ok (Found (pick keep (f_special st)) unused cuts).
Definition count (l : list bool) : nat := length (filter (fun x => x) l).
Definition not_behind (n : q3) (points : list q3) : list bool := map (fun p => negb (qneg (qdot n p))) points.
(** src/bz_wedge.cpp 21-35. *)
Definition keep_if (normals points : list q3) : list bool :=
  if forallb (fun n => existsb (fun p => qpos (qdot n p)) points) normals
  then map (fun p => forallb (fun n => negb (qneg (qdot n p))) normals) points
  else map (fun _ => true) points.
(** src/bz_wedge.cpp 37-42.  For fewer than two points the bound of the loop is the largest
    number.  The components in the units of the lattice are used, not those in xyz. *)
Fixpoint triples (l : list q3) : list (q3 * q3 * q3) :=
  match l with
  | x :: (y :: z :: _) as t => (x, y, z) :: triples t
  | _ => []
  end.
Definition have_volume (points : list q3) : outcome bool :=
  if length points <? 2 then UB
  else Ok (negb (Qeq_bool (fold_left (fun t '(x, y, z) => t + Qabs (qdot (to_hkl b x) (qcross (to_hkl b y) (to_hkl b z))))%Q (triples points) 0%Q) 0)).

(** src/bz_wedge.cpp 111-114. *)
Definition eiv : list v3 :=
  [V3 1 0 0; V3 0 1 0; V3 0 0 1; V3 1 1 0; V3 1 (-1) 0; V3 1 0 1; V3 0 1 1; V3 1 0 (-1); V3 0 1 (-1); V3 1 1 1].
Definition recip (z : v3) : q3 := tau b (v0 z, v1 z, v2 z).
Definition eis : list q3 := map recip eiv.
Definition reis : list q3 := map (from_uvw b) eiv.
Definition along (l : list q3) (x : q3) : list bool := map (fun e => qzero (qcross e x)) l.
(** src/array2.tpp 464-472: the number of rows if there is none. *)
Fixpoint first (l : list bool) : nat := match l with [] => 0 | x :: t => if x then 0 else S (first t) end.
(** src/bz_wedge.cpp 126-137. *)
Definition e1_e2 : list (nat * nat) := [(2, 0); (0, 1); (1, 2); (3, 2); (2, 4); (1, 5); (6, 0); (7, 1); (0, 8)].
(** src/bz_wedge.cpp 118-174. *)
Definition two_fold (st : found) (ir : nat * m3) : outcome found :=
  let (i, r) := ir in
  if (isometry_value (l9 r) =? 2)%Z then
    let a := axis_of r in
    let nth_ei := first (along eis a) in
    let* st := (if nth_ei <? 9 then
                  let* (e1, e2) := rd e1_e2 nth_ei in
                  let* x := rd reis e1 in
                  let* y := rd eis e2 in
                  let nrm := qcross x y in
                  if count (along eis nrm) =? 1 then use i (not_behind nrm (f_special st)) [nrm] st else Ok st
                else Ok st) in
    let nth_ei := first (along reis a) in
    let* unused := rd (f_unused st) i in
    if unused && (nth_ei <? 2) then
      let nrm := if nth_ei =? 0 then recip (V3 0 1 0) else recip (V3 1 0 0) in
      use i (not_behind nrm (f_special st)) [nrm] st
    else Ok st
  else Ok st.
(** src/bz_wedge.cpp 176-195.  A normal of length zero is divided by zero and no comparison with
    it is true. *)
Definition half (n : q3) (points : list q3) : list bool := if qzero n then map (fun _ => false) points else not_behind n points.
Definition enough (keep : list bool) (points : list q3) : outcome bool :=
  if count keep <? 3 then Ok false else have_volume (pick keep points).
Definition mirror_plane (st : found) (ir : nat * m3) : outcome found :=
  let (i, r) := ir in
  if (isometry_value (l9 r) =? -2)%Z then
    let a := axis_of r in
    let* good := enough (half a (f_special st)) (f_special st) in
    let nrm := if good : bool then a else qscale (-1) a in
    let keep := half nrm (f_special st) in
    let* good := enough keep (f_special st) in
    if good : bool then use i keep [nrm] st else Ok st
  else Ok st.

(** src/array2.tpp 619-628: a negative order checks all turns up to it. *)
Definition match_any (special : list q3) (r : m3) (k j : nat) : outcome bool :=
  let* x := rd special k in
  let* y := rd special j in
  Ok (existsb (fun o => qeqb x (turned b r o y)) (seq 0 (S (order_of r)))).
(** src/array2.tpp 629-633. *)
Definition match_one (special : list q3) (r : m3) (k j o : nat) : outcome bool :=
  let* x := rd special k in
  let* y := rd special j in
  Ok (qeqb x (turned b r o y)).
(** src/bz_wedge.cpp 207-216. *)
Definition of_type (special : list q3) (r : m3) (j : nat) (st : list bool * list nat) (k : nat) : outcome (list bool * list nat) :=
  let (unfound, one_type) := st in
  let* un := rd unfound k in
  if un : bool then
    let* m := match_any special r k j in
    if m : bool then let* unfound := wr unfound k false in Ok (unfound, one_type ++ [k]) else Ok (unfound, one_type)
  else Ok (unfound, one_type).
(** src/bz_wedge.cpp 220-230. *)
Definition place_type (special : list q3) (r : m3) (j : nat) (one_type : list nat) (st : list nat * list bool) (ok : nat * nat) : outcome (list nat * list bool) :=
  let (type_order, type_unfound) := st in
  let (o, k) := ok in
  let* un := rd type_unfound k in
  if un : bool then
    let* p := rd one_type k in
    let* m := match_one special r p j o in
    if m : bool then
      let* type_order := wr type_order o p in
      let* type_unfound := wr type_unfound k false in
      Ok (type_order, type_unfound)
    else Ok (type_order, type_unfound)
  else Ok (type_order, type_unfound).
(** src/bz_wedge.cpp 206-234. *)
Definition one_point (special : list q3) (r : m3) (st : list bool * list (list nat)) (j : nat) : outcome (list bool * list (list nat)) :=
  let (unfound, one_sym) := st in
  let* un := rd unfound j in
  if un : bool then
    let* unfound := wr unfound j false in
    let* (unfound, one_type) := foldM (of_type special r j) (seq (S j) (length special - S j)) (unfound, [j]) in
    let* (type_order, _) := foldM (place_type special r j one_type)
        (list_prod (seq 0 (order_of r)) (seq 0 (length one_type)))
        (repeat (length special) (order_of r), map (fun _ => true) one_type) in
    Ok (unfound, one_sym ++ [type_order])
  else Ok (unfound, one_sym).
(** src/bz_wedge.cpp 200, 204-205: the flags have the number of points there were before, of
    which there are now as many or fewer. *)
Definition all_points (special : list q3) (r : m3) : outcome (list (list nat)) :=
  let* (_, one_sym) := foldM (one_point special r) (seq 0 (length special)) (map (fun _ => true) special, []) in
  Ok one_sym.

(** src/bz_wedge.cpp 312-315. *)
Definition not_parallel (q x : q3) : bool := negb (Qeq_bool (qdot x q * qdot x q) (qdot x x * qdot q q)).
(** src/bz_wedge.cpp 319-348: whether the points are off the axis, and the normals. *)
Definition normals_of (special : list q3) (r : m3) (sj sk : nat) : outcome (bool * list q3) :=
  let q := axis_of r in
  let* pt0 := rd special sj in
  if 2 <? order_of r then
    let* pt1 := rd special sk in
    Ok (not_parallel q pt0 && not_parallel q pt1,
        if qneg (qdot pt1 (qcross q pt0)) then [qcross q pt1; qcross pt0 q] else [qcross q pt0; qcross pt1 q])
  else
    let nrm := qcross q pt0 in
    Ok (not_parallel q pt0, [if existsb (fun p => qpos (qdot nrm p)) special then nrm else qscale (-1) nrm]).
(** src/bz_wedge.cpp 316-365, for one [j]. *)
Definition try_pair (i : nat) (r : m3) (s : list nat) (st : found) (j : nat) : outcome found :=
  let special := f_special st in
  let* unused := rd (f_unused st) i in
  if unused : bool then
    let* sj := rd s j in
    let* sk := rd s (S j mod length s) in
    if (sj <? length special) && (sk <? length special) then
      let* (non_parallel, nrm) := normals_of special r sj sk in
      let keep := keep_if nrm special in
      if non_parallel && (2 <? count keep) && (count keep <? length keep) then use i keep nrm st else Ok st
    else Ok st
  else Ok st.
(** src/bz_wedge.cpp 303-368, for one [s]. *)
Definition try_type (i : nat) (r : m3) (st : found) (s : list nat) : outcome found :=
  let* unused := rd (f_unused st) i in
  if unused && (length (filter (Nat.eqb (length (f_special st))) s) + 1 <? length s)
  then foldM (try_pair i r s) (seq 0 (length s)) st else Ok st.
(** src/bz_wedge.cpp 201-369, for one operation.  [sort] is line 236. *)
Definition try_operation (sort : list (list nat) -> list (list nat)) (st : found) (ir : nat * m3) : outcome found :=
  let (i, r) := ir in
  let* unused := rd (f_unused st) i in
  if unused : bool then
    let* one_sym := all_points (f_special st) r in
    foldM (try_type i r) (sort one_sym) st
  else Ok st.
(** src/bz_wedge.cpp 93-370. *)
Definition find_cuts (special_2_folds special_mirrors : bool) (sort : list (list nat) -> list (list nat)) (special : list q3) : outcome found :=
  let ops := combine (seq 0 (length ps)) ps in
  let* st := (if special_2_folds then foldM two_fold ops else Ok) (Found special (map (fun _ => true) ps) []) in
  let* st := (if special_mirrors then foldM mirror_plane ops else Ok) st in
  foldM (try_operation sort) ops st.
End Cuts.
