(** Model of vectors in the units of a lattice: src/array_lvec.hpp,
    src/array_lvec_methods.tpp and the parts of src/array_functions.hpp for them.

    An array of vectors is the list of its rows; the views and strides are those of Array2
    (see Array2Model.v). Elements are real numbers and computed exactly. Lattices are the
    same when their two stored matrices are equal, where the code compares with tolerance
    (src/lattice_dual.hpp 632-637). [assert] vanishes in release builds. *)
From Coq Require Import Reals.
From Verif Require Import Base Array2Model PrimitiveModel AngleModel LatticeModel.
Local Open Scope outcome_scope.
Local Open Scope R_scope.

(** src/array_lvec.hpp 87-96: the type (unit), the lattice (real space basis, reciprocal
    space basis) and the rows. *)
Record lvec := LV { lv_unit : unit; lv_real : mat; lv_recip : mat; lv_rows : list r3 }.

Definition unit_eqb (u v : unit) : bool :=
  match u, v with Angstrom, Angstrom | InverseAngstrom, InverseAngstrom | OtherUnit, OtherUnit => true | _, _ => false end.
Definition mat_eqb (a b : mat) : bool :=
  eqb (e00 a) (e00 b) && eqb (e01 a) (e01 b) && eqb (e02 a) (e02 b) &&
  eqb (e10 a) (e10 b) && eqb (e11 a) (e11 b) && eqb (e12 a) (e12 b) &&
  eqb (e20 a) (e20 b) && eqb (e21 a) (e21 b) && eqb (e22 a) (e22 b).
(** src/lattice_dual.hpp 632-637. *)
Definition is_same (a b : lvec) : bool := mat_eqb (lv_real a) (lv_real b) && mat_eqb (lv_recip a) (lv_recip b).
(** src/array_lvec.hpp 121-124. *)
Definition same_lattice (a b : lvec) : bool := is_same a b && unit_eqb (lv_unit a) (lv_unit b).
Definition star_lattice (a b : lvec) : bool := is_same a b && negb (unit_eqb (lv_unit a) (lv_unit b)).
(** src/lattice_dual.hpp 566-573 and 621-630; the stored metrics are those of the stored
    matrices (506-508). *)
Definition metric_of (v : lvec) : outcome mat :=
  match lv_unit v with
  | Angstrom => Ok (metric (lv_real v))
  | InverseAngstrom => Ok (metric (lv_recip v))
  | OtherUnit => Throw
  end.
Definition volume_of (v : lvec) : outcome R :=
  match lv_unit v with
  | Angstrom => Ok (determinant (lv_real v))
  | InverseAngstrom => Ok (determinant (lv_recip v))
  | OtherUnit => Throw
  end.
(** [LengthUnit::angstrom == _type ? inverse_angstrom : angstrom],
    src/array_lvec_methods.tpp 58 and 74, src/array_functions.hpp 196 and 402. *)
Definition flipped (u : unit) : unit := match u with Angstrom => InverseAngstrom | _ => Angstrom end.
Definition scale_row (f : R -> R) (x : r3) : r3 := R3 (f (rx x)) (f (ry x)) (f (rz x)).

(** src/array_lvec_methods.tpp 40-51. *)
Definition xyz (v : lvec) : outcome (list r3) :=
  let* t := to_xyz (lv_real v) (lv_recip v) (lv_unit v) in
  Ok (map (mul_mat_vec t) (lv_rows v)).
(** src/array_lvec_methods.tpp 53-66, the method. *)
Definition star (v : lvec) : outcome lvec :=
  let* t := metric_of v in
  Ok (LV (flipped (lv_unit v)) (lv_real v) (lv_recip v)
         (map (fun x => scale_row (fun e => e / (2 * PI)) (mul_mat_vec t x)) (lv_rows v))).
(** src/array_functions.hpp 398-410, the function of the same name. *)
Definition star_function (v : lvec) : outcome lvec :=
  let* t := metric_of v in
  Ok (LV (flipped (lv_unit v)) (lv_real v) (lv_recip v) (map (mul_mat_vec t) (lv_rows v))).

(** src/utilities.hpp 369-378, [vector_cross] for three elements. *)
Definition vector_cross (x y : r3) : r3 :=
  R3 (ry x * rz y - rz x * ry y) (rz x * rx y - rx x * rz y) (rx x * ry y - ry x * rx y).
(** The pairs of rows that the loops of src/array_functions.hpp 178-186, 233-241 and
    278-287 visit. *)
Definition row_pairs (n m : nat) : list (nat * nat) :=
  if (n =? 1)%nat then map (fun j => (0%nat, j)) (seq 0 m)
  else if (m =? 1)%nat then map (fun j => (j, 0%nat)) (seq 0 n)
  else map (fun j => (j, j)) (seq 0 n).
(** src/array_functions.hpp 167-188 and 223-244 on bare arrays: rows are reached by
    pointers without checks. *)
Definition by_pointer {T} (f : r3 -> r3 -> T) (a b : list r3) : outcome (list T) :=
  mapM (fun ij : nat * nat => let* x := rd a (fst ij) in let* y := rd b (snd ij) in Ok (f x y))
       (row_pairs (length a) (length b)).
(** src/array_functions.hpp 189-201. That the lattices are the same is asserted only. *)
Definition cross_function (a b : lvec) : outcome lvec :=
  let* o := by_pointer vector_cross (lv_rows a) (lv_rows b) in
  let* vol := volume_of a in
  star (LV (flipped (lv_unit a)) (lv_real a) (lv_recip a) (map (scale_row (fun e => e * (vol / (2 * PI)))) o)).
(** src/array_functions.hpp 246-255. *)
Definition same_lattice_dot (g : mat) (x y : r3) : R :=
  let t := mul_mat_vec g x in 0 + rx t * rx y + ry t * ry y + rz t * rz y.
(** A row of a view: Array2::view(i), src/array2.tpp 26-36, throws past the end. *)
Definition view_row (a : list r3) (i : nat) : outcome r3 :=
  match nth_error a i with Some x => Ok x | None => Throw end.
(** src/array_functions.hpp 257-290. The first row of the single-row operand is reached
    with [x.ptr(0)] and [y[i]]. *)
Definition dot_function (a b : lvec) : outcome (list R) :=
  let is_star := star_lattice a b in
  if negb (is_star || same_lattice a b) then Throw
  else if is_star then
    let* o := by_pointer rdot (lv_rows a) (lv_rows b) in
    Ok (map (fun x => x * (2 * PI)) o)
  else
    let* g := metric_of a in
    mapM (fun ij : nat * nat => let* x := view_row (lv_rows a) (fst ij) in let* y := view_row (lv_rows b) (snd ij) in
            Ok (same_lattice_dot g x y))
         (row_pairs (length (lv_rows a)) (length (lv_rows b))).
(** src/array_functions.hpp 318-326. *)
Definition norm_function (a : lvec) : outcome (list R) :=
  let* o := dot_function a a in mapM rsqrt o.
(** src/array_lvec_methods.tpp 84-91 and src/array_lvec.hpp 141. *)
Definition dot_method (v : lvec) (i j : nat) : outcome R :=
  if (length (lv_rows v) <=? i)%nat || (length (lv_rows v) <=? j)%nat then Throw
  else
    let* g := metric_of v in
    let* x := view_row (lv_rows v) i in
    let* y := view_row (lv_rows v) j in
    Ok (same_lattice_dot g x y).
Definition norm_method (v : lvec) (i : nat) : outcome R := let* d := dot_method v i i in rsqrt d.
(** src/array_lvec_methods.tpp 68-82. *)
Definition cross_method (v : lvec) (i j : nat) : outcome lvec :=
  if (i <? length (lv_rows v))%nat && (j <? length (lv_rows v))%nat then
    let* x := rd (lv_rows v) i in
    let* y := rd (lv_rows v) j in
    let* vol := volume_of v in
    star (LV (flipped (lv_unit v)) (lv_real v) (lv_recip v) [scale_row (fun e => e * (vol / (2 * PI))) (vector_cross x y)])
  else Ok (LV (lv_unit v) (lv_real v) (lv_recip v) []).
(** src/array_functions.hpp 57-71, [+] and [-] of two arrays of vectors: the type and the
    lattice of the first, the same lattice is asserted only. The rows are combined as in
    ArithModel.v, where no row against one row is undefined. *)
Definition combine_rows (f : r3 -> r3 -> r3) (a b : lvec) : outcome lvec :=
  let n := length (lv_rows a) in let m := length (lv_rows b) in
  if ((n =? 0)%nat && (m =? 1)%nat) || ((n =? 1)%nat && (m =? 0)%nat) then UB
  else if negb ((n =? m)%nat || (n =? 1)%nat || (m =? 1)%nat) then Throw
  else let* o := by_pointer f (lv_rows a) (lv_rows b) in
       Ok (LV (lv_unit a) (lv_real a) (lv_recip a) o).
Definition plus_rows : lvec -> lvec -> outcome lvec := combine_rows (fun x y => R3 (rx x + rx y) (ry x + ry y) (rz x + rz y)).
Definition minus_rows : lvec -> lvec -> outcome lvec := combine_rows (fun x y => R3 (rx x - rx y) (ry x - ry y) (rz x - rz y)).
(** src/array_functions.hpp 356-364 along the rows. *)
Definition cat_rows (a b : lvec) : outcome lvec :=
  if same_lattice a b then Ok (LV (lv_unit a) (lv_real a) (lv_recip a) (lv_rows a ++ lv_rows b)) else Throw.
(** src/array_functions.hpp 431-437. *)
Definition minus_self (a : lvec) : lvec := LV (lv_unit a) (lv_real a) (lv_recip a) (map (scale_row (fun e => -1 * e)) (lv_rows a)).
