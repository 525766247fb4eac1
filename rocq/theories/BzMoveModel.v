(** Model of moving points into the first and the irreducible Brillouin zone
    (src/bz_move.cpp; src/bz.hpp 54-64, 107-109, 631-643, 738-761; src/geometry.hpp 118-138, 414-418).
    Components of points are rationals and comparisons are exact (the code allows a tolerance);
    integers do not overflow.  Points are reciprocal-lattice vectors. *)
From Coq Require Import QArith.
From Verif Require Import Base Array2Model MatSpec MatModel MotionModel SymmetryModel PrimitiveModel.
Local Open Scope outcome_scope.
Local Open Scope Z_scope.

(** Which lattice the components of a vector are for. *)
Inductive lat := Conventional | Primitive | Other.
Definition lat_eqb (a b : lat) : bool :=
  match a, b with Conventional, Conventional | Primitive, Primitive | Other, Other => true | _, _ => false end.

(** Vector arithmetic by component (src/array_functions.hpp 41-53). *)
Definition qsub (a b : qvec) : qvec := let '(x, y, z) := a in let '(u, v, w) := b in (x - u, y - v, z - w)%Q.
Definition zadd (a b : zvec) : zvec := let '(x, y, z) := a in let '(u, v, w) := b in (x + u, y + v, z + w).
Definition zscale (n : Z) (a : zvec) : zvec := let '(x, y, z) := a in (x * n, y * n, z * n).
Definition qof (a : zvec) : qvec := let '(x, y, z) := a in (inject_Z x, inject_Z y, inject_Z z).
Definition is_zero (a : zvec) : bool := let '(x, y, z) := a in (x =? 0) && (y =? 0) && (z =? 0).

(** The parts of a BrillouinZone used here (bz.hpp 54-64).  [planes]: three points of every
    face (Faces::planes), in the conventional lattice.  [scores q]: for every face the rounded
    N_hkl and the product of [q] with the normal (bz_move.cpp 29-30); they hold square roots
    and are left arbitrary.  [taus]: twice the face points. *)
Record zone := Zone {
  brav : bravais;
  prim : bool;                       (* made with the primitive option *)
  planes : list (qvec * qvec * qvec);
  taus : list zvec;
  scores : qvec -> list (Z * Q);
  ops : list m3;                     (* get_pointgroup_symmetry().getall() *)
  wedge : list qvec;                 (* the wedge normals, multiplied by the metric *)
  no_ir_mirroring : bool }.
(** array_functions.hpp 247-256, 272-288: the products of the wedge normals with a point. *)
Definition wedge_dots (z : zone) (p : qvec) : list Q :=
  map (fun n => let '(n0, n1, n2) := n in let '(p0, p1, p2) := p in (0 + n0 * p0 + n1 * p1 + n2 * p2)%Q) (wedge z).
(** bz.hpp 107: the inner lattice; a lattice with nothing to transform is its own primitive. *)
Definition inner (z : zone) : lat := if prim z && negb (does_nothing (brav z)) then Primitive else Conventional.
(** src/transform.hpp 48, 109: vectors already in the requested lattice are returned. *)
Definition q_transform_to (b : bravais) (l : lat) (v : qvec) : outcome qvec :=
  match l with Primitive => Ok v | Conventional => q_to b InverseAngstrom v | Other => Throw end.
Definition q_transform_from (b : bravais) (l : lat) (v : qvec) : outcome qvec :=
  match l with Conventional => Ok v | Primitive => q_from b InverseAngstrom v | Other => Throw end.

(** geometry.hpp 131-134: one value of pseudo_orient3d, up to the positive volume of the cell. *)
Definition orient3d (pl : qvec * qvec * qvec) (d : qvec) : Q :=
  let '(a, b, c) := pl in
  let '(a0, a1, a2) := qsub a d in let '(b0, b1, b2) := qsub b d in let '(c0, c1, c2) := qsub c d in
  (a0 * (b1 * c2 - b2 * c1) + a1 * (b2 * c0 - b0 * c2) + a2 * (b0 * c1 - b1 * c0))%Q.
(** std::min_element: the first smallest one. *)
Fixpoint min_from (m : Q) (l : list Q) : Q :=
  match l with [] => m | x :: t => min_from (if negb (Qle_bool m x) then x else m) t end.
(** geometry.hpp 414-418; with no planes the iterator read is the end. *)
Definition point_inside_all_planes (pls : list (qvec * qvec * qvec)) (x : qvec) : outcome bool :=
  match map (fun p => orient3d p x) pls with
  | [] => UB
  | o :: l => Ok (Qle_bool 0 (min_from o l))
  end.

(** bz_move.cpp 31-43: the face chosen; the state is (max_nm, max_at). *)
Definition choose_step (sc : list (Z * Q)) (ts : list zvec) (last : zvec) (st : Z * nat) (j : nat) : outcome (Z * nat) :=
  let (nm, at_) := st in
  let* (n, d) := rd sc j in
  if negb ((0 <? n) && (nm <=? n)) then Ok st
  else if 0 =? nm then Ok (n, j)
  else let* t := rd ts j in
       let* (n', d') := rd sc at_ in
       if negb (is_zero (zadd t last)) && negb (Qle_bool d d') then Ok (n, j) else Ok st.
Definition choose (sc : list (Z * Q)) (ts : list zvec) (last : zvec) : outcome (Z * nat) :=
  foldM (choose_step sc ts last) (seq 0 (length sc)) (0, 0%nat).
(** 28-48: the loop; the state is (q, tau, last_shift).  The product of line 29 throws when the
    normals [ln] are in another lattice than the point [lq] (array_functions.hpp 262-265). *)
Fixpoint move_loop (z : zone) (same_lattice : bool) (pls : list (qvec * qvec * qvec)) (count : nat)
    (q : qvec) (tau last : zvec) : outcome (qvec * zvec) :=
  match count with
  | O => Ok (q, tau)
  | S k =>
    let* isin := point_inside_all_planes pls q in
    if isin then Ok (q, tau)
    else if negb same_lattice then Throw
    else let sc := scores z q in
         if existsb (fun s => 0 <? fst s) sc
         then let* (nm, at_) := choose sc (taus z) last in
              let* t := rd (taus z) at_ in
              let s := zscale nm t in
              move_loop z same_lattice pls k (qsub q (qof s)) (zadd tau s) s
         else move_loop z same_lattice pls k q tau last
  end.
(** 22-27. *)
Definition round3 (rnd : Q -> Z) (v : qvec) : zvec := let '(x, y, z) := v in (rnd x, rnd y, rnd z).
Definition part_moveinto_prim (z : zone) (rnd : Q -> Z) (same_lattice : bool) (pls : list (qvec * qvec * qvec))
    (Qs : list qvec) : outcome (list (qvec * zvec)) :=
  mapM (fun Q_i => let t := round3 rnd Q_i in
                   move_loop z same_lattice pls (length (taus z)) (qsub Q_i (qof t)) t t) Qs.

(** bz.hpp 631-643. *)
Definition isinside (z : zone) (l : lat) (ps : list qvec) : outcome (list bool) :=
  let isinner := lat_eqb (inner z) l in
  if negb (isinner || lat_eqb Conventional l) then Throw
  else let* pp := if isinner && negb (does_nothing (brav z)) then mapM (q_transform_from (brav z) l) ps else Ok ps in
       mapM (point_inside_all_planes (planes z)) pp.

(** bz_move.cpp 103-163: the points, translations and their lattice.  [rnd] is std::round. *)
Definition moveinto (z : zone) (rnd : Q -> Z) (l : lat) (Qs : list qvec) : outcome (list (qvec * zvec)) :=
  let b := brav z in
  let already_same := lat_eqb (inner z) l in
  let transform_needed := negb (does_nothing b) && lat_eqb Conventional l in
  if negb (already_same || transform_needed) then Throw
  else
    let* Qsl := if transform_needed then mapM (q_transform_to b l) Qs else Ok Qs in
    let* pls := mapM (fun p => let '(p0, p1, p2) := p in
                  let* a := q_transform_to b Conventional p0 in
                  let* c := q_transform_to b Conventional p1 in
                  let* d := q_transform_to b Conventional p2 in Ok (a, c, d)) (planes z) in
    (* lines 137-139, bz.cpp 108-120: the normals and taus are in the inner lattice *)
    let lsl := if transform_needed then Primitive else l in
    let* qt := part_moveinto_prim z rnd (lat_eqb (inner z) lsl) pls Qsl in
    let* res := if transform_needed
                then mapM (fun p => let* q := q_transform_from b Primitive (fst p) in
                                    let* t := z_from b InverseAngstrom (snd p) in Ok (q, t)) qt
                else Ok qt in
    let* ins := isinside z l (map fst res) in
    if existsb negb ins then Throw else Ok res.

(** bz.hpp 753-761. *)
Definition inside_wedge (z : zone) (p : qvec) : bool :=
  let ds := wedge_dots z p in
  if no_ir_mirroring z then forallb (Qle_bool 0) ds
  else forallb (fun d => Qle_bool d 0) ds || forallb (Qle_bool 0) ds.
(** bz_move.cpp 259-260, 272: a transposed operation applied to a point. *)
Definition rotate_t (r : m3) (p : qvec) : qvec := qmat_vec (transpose9 (l9 r)) p.
(** 269-283: the first operation which moves the point into the wedge. *)
Fixpoint find_op (z : zone) (j : nat) (todo : list m3) (p : qvec) : option (nat * qvec) :=
  match todo with
  | [] => None
  | r :: t => let pj := rotate_t r p in if inside_wedge z pj then Some (j, pj) else find_op z (S j) t p
  end.
(** 262-286: for one point; [old] is what the two index lists held. *)
Definition ir_point (z : zone) (p : qvec) (old : nat * nat) : outcome (qvec * (nat * nat) * bool) :=
  let eidx := find_identity_index (ops z) in
  if inside_wedge z p then Ok (p, (eidx, eidx), true)
  else match find_op z 0 (ops z) p with
       | Some (j, pj) => let* i := get_inverse_index (ops z) j in Ok (pj, (i, j), true)
       | None => Ok (p, old, false)
       end.
(** 165-296: for every point (q, tau, Ridx, invRidx). *)
Definition ir_moveinto (z : zone) (rnd : Q -> Z) (l : lat) (Qs : list qvec) (old : list (nat * nat)) :
    outcome (list (qvec * zvec * (nat * nat))) :=
  if negb (lat_eqb Conventional l) then Throw
  else
    let* qt := moveinto z rnd l Qs in
    let* rs := mapM (fun it => let* (p, o, ok) := ir_point z (fst (snd it)) (nth (fst it) old (0, 0)%nat) in
                               Ok ((p, snd (snd it), o), ok))
                    (combine (seq 0 (length qt)) qt) in
    let res := map fst rs in
    if existsb (fun r => negb (snd r)) rs && existsb (fun r => negb (inside_wedge z (fst (fst r)))) res
    then Throw else Ok res.

(** 299-356: ir_moveinto_wedge, for every point (q, R); [oldq] and [oldr] are what the two
    outputs held after the resize.  The points are treated one by one by any number of threads. *)
Definition wedge_point (z : zone) (p : qvec) (old : qvec * nat) : outcome (qvec * nat * bool) :=
  if inside_wedge z p then Ok (p, find_identity_index (ops z), true)
  else match find_op z 0 (ops z) p with
       | Some (j, pj) => let* i := get_inverse_index (ops z) j in Ok (pj, i, true)
       | None => Ok (old, false)
       end.
Definition ir_moveinto_wedge (z : zone) (l : lat) (Qs : list qvec) (old : list (qvec * nat)) :
    outcome (list (qvec * nat)) :=
  if negb (lat_eqb Conventional l) then Throw
  else
    let* rs := mapM (fun it => wedge_point z (fst it) (snd it)) (combine Qs old) in
    let res := map fst rs in
    if existsb (fun r => negb (snd r)) rs && existsb (fun r => negb (inside_wedge z (fst r))) res
    then Throw else Ok res.
