(** Model of the basis vectors of a lattice, src/lattice_dual.hpp.

    Numbers are real numbers and computed exactly; where the program would get a number that is
    not finite the outcome is UB. *)
From Coq Require Import Reals ZArith.
From Verif Require Import Base Array2Model MatSpec SymmetryModel PrimitiveModel AngleModel.
Local Open Scope outcome_scope.
Local Open Scope R_scope.

Definition rdiv (a b : R) : outcome R := if eqb b 0 then UB else Ok (a / b).
Definition rsqrt (a : R) : outcome R := if ltb a 0 then UB else Ok (sqrt a).

(** std::array<T,9>, rows first. *)
Record mat := Mat { e00 : R; e01 : R; e02 : R; e10 : R; e11 : R; e12 : R; e20 : R; e21 : R; e22 : R }.
Definition map_mat (f : R -> R) (m : mat) : mat :=
  Mat (f (e00 m)) (f (e01 m)) (f (e02 m)) (f (e10 m)) (f (e11 m)) (f (e12 m)) (f (e20 m)) (f (e21 m)) (f (e22 m)).
(** src/linear_algebra.hpp 18-20. *)
Definition transpose (m : mat) : mat := Mat (e00 m) (e10 m) (e20 m) (e01 m) (e11 m) (e21 m) (e02 m) (e12 m) (e22 m).
(** src/linear_algebra.hpp 71-80. *)
Definition mul_mat_mat (a b : mat) : mat :=
  let c x0 x1 x2 y0 y1 y2 := 0 + x0 * y0 + x1 * y1 + x2 * y2 in
  Mat (c (e00 a) (e01 a) (e02 a) (e00 b) (e10 b) (e20 b)) (c (e00 a) (e01 a) (e02 a) (e01 b) (e11 b) (e21 b)) (c (e00 a) (e01 a) (e02 a) (e02 b) (e12 b) (e22 b))
      (c (e10 a) (e11 a) (e12 a) (e00 b) (e10 b) (e20 b)) (c (e10 a) (e11 a) (e12 a) (e01 b) (e11 b) (e21 b)) (c (e10 a) (e11 a) (e12 a) (e02 b) (e12 b) (e22 b))
      (c (e20 a) (e21 a) (e22 a) (e00 b) (e10 b) (e20 b)) (c (e20 a) (e21 a) (e22 a) (e01 b) (e11 b) (e21 b)) (c (e20 a) (e21 a) (e22 a) (e02 b) (e12 b) (e22 b)).
(** src/linear_algebra.hpp 53-63. *)
Definition mul_mat_vec (a : mat) (x : r3) : r3 :=
  let c x0 x1 x2 := rx x * x0 + ry x * x1 + rz x * x2 in
  R3 (c (e00 a) (e01 a) (e02 a)) (c (e10 a) (e11 a) (e12 a)) (c (e20 a) (e21 a) (e22 a)).
(** src/utilities.tpp 96-123 for 2x2 and 3x3; the loops over lists are in MatModel, here they
    are unrolled. *)
Definition det2 (a b c d : R) : R := a * d - c * b.
Definition determinant (m : mat) : R :=
  0 + 1 * e00 m * det2 (e11 m) (e12 m) (e21 m) (e22 m) + -1 * e10 m * det2 (e01 m) (e02 m) (e21 m) (e22 m) + 1 * e20 m * det2 (e01 m) (e02 m) (e11 m) (e12 m).
(** src/utilities.tpp 126-141. *)
Definition adjoint (m : mat) : mat :=
  Mat (det2 (e11 m) (e12 m) (e21 m) (e22 m)) (- det2 (e01 m) (e02 m) (e21 m) (e22 m)) (det2 (e01 m) (e02 m) (e11 m) (e12 m))
      (- det2 (e10 m) (e12 m) (e20 m) (e22 m)) (det2 (e00 m) (e02 m) (e20 m) (e22 m)) (- det2 (e00 m) (e02 m) (e10 m) (e12 m))
      (det2 (e10 m) (e11 m) (e20 m) (e21 m)) (- det2 (e00 m) (e01 m) (e20 m) (e21 m)) (det2 (e00 m) (e01 m) (e10 m) (e11 m)).
(** src/linear_algebra.hpp 120-125, src/utilities.tpp 144-156: the zeros stay if there is no
    inverse. *)
Definition mat_inverse (m : mat) : mat :=
  if eqb (determinant m) 0 then Mat 0 0 0 0 0 0 0 0 0 else map_mat (fun x => x / determinant m) (adjoint m).

(** src/lattice_dual.hpp 53-70. *)
Definition unit_volume (c : r3) : outcome R :=
  let sum := 0 + rx c * rx c + ry c * ry c + rz c * rz c in
  let prod := 2 * rx c * ry c * rz c in
  let squared := 1 - sum + prod in
  if ltb 0 squared then rsqrt squared else Throw.
(** src/lattice_dual.hpp 78-85, one step. *)
Definition dual_one (volume li ci si cj ck sj sk : R) : outcome (R * R * R) :=
  let* l := rdiv (2 * PI * si) li in
  let* l := rdiv l volume in
  let* c := rdiv (cj * ck - ci) (sj * sk) in
  let* s := rsqrt (1 - c * c) in
  Ok (l, c, s).
(** src/lattice_dual.hpp 73-87. *)
Definition dual_parameters (l c s : r3) : outcome (r3 * r3 * r3) :=
  let* v := unit_volume c in
  let* (l0, c0, s0) := dual_one v (rx l) (rx c) (rx s) (ry c) (rz c) (ry s) (rz s) in
  let* (l1, c1, s1) := dual_one v (ry l) (ry c) (ry s) (rz c) (rx c) (rz s) (rx s) in
  let* (l2, c2, s2) := dual_one v (rz l) (rz c) (rz s) (rx c) (ry c) (rx s) (ry s) in
  Ok (R3 l0 l1 l2, R3 c0 c1 c2, R3 s0 s1 s2).
(** src/lattice_dual.hpp 129-139. *)
Definition metric (m : mat) : mat := mul_mat_mat (transpose m) m.
(** src/lattice_dual.hpp 487-502, without snapping. *)
Definition set_matrix (m : mat) (u : unit) : outcome (mat * mat) :=
  let other := map_mat (fun x => x * (2 * PI)) (mat_inverse m) in
  match u with
  | Angstrom => Ok (m, transpose other)
  | InverseAngstrom => Ok (transpose other, m)
  | OtherUnit => Throw
  end.
(** src/lattice_dual.hpp 472-476. *)
Definition b_matrix (rv rcos rsin dcos dv : r3) : outcome mat :=
  let* h := rdiv (2 * PI) (rz dv) in
  Ok (Mat (rx rv) (ry rv * rz rcos) (rz rv * ry rcos)
          0 (ry rv * rz rsin) (- rz rv * ry rsin * rx dcos)
          0 0 h).
(** src/lattice_dual.hpp 455-478, without snapping. *)
Definition set_parameters (bits : nat) (v a : r3) (lu : unit) (au : angle_unit) : outcome (mat * mat) :=
  let* (c, s) := to_cosines_sines bits a au in
  let* (rv, rcos, rsin, dv, dcos) :=
    match lu with
    | Angstrom => let* (rv, rcos, rsin) := dual_parameters v c s in Ok (rv, rcos, rsin, v, c)
    | InverseAngstrom => let* (dv, dcos, _) := dual_parameters v c s in Ok (v, c, s, dv, dcos)
    | OtherUnit => Throw
    end in
  let* b := b_matrix rv rcos rsin dcos dv in
  set_matrix b InverseAngstrom.

(** src/lattice_dual.hpp 579-612. *)
Definition column (m : mat) (i : nat) : r3 :=
  match i with
  | O => R3 (e00 m) (e10 m) (e20 m)
  | S O => R3 (e01 m) (e11 m) (e21 m)
  | _ => R3 (e02 m) (e12 m) (e22 m)
  end.
Definition rdot (x y : r3) : R := rx x * rx y + ry x * ry y + rz x * rz y.
Definition norm (x : r3) : outcome R := rsqrt (rdot x x).
Definition length_of (m : mat) (i : nat) : outcome R := norm (column m i).
Definition angle_of (m : mat) (i : nat) (u : angle_unit) : outcome R :=
  let vj := column m ((i + 1) mod 3) in
  let vk := column m ((i + 2) mod 3) in
  let* nj := norm vj in
  let* nk := norm vk in
  let* c := rdiv (rdot vj vk) nj in
  let* c := rdiv c nk in
  match u with
  | Radian => Ok (acos c)
  | Degree => Ok (acos c / PI * 180)
  | Pi => Ok (acos c / PI)
  | NotProvided => Throw
  end.
(** src/lattice_dual.hpp 614-620. *)
Definition lengths (m : mat) : outcome r3 :=
  let* x := length_of m 0 in let* y := length_of m 1 in let* z := length_of m 2 in Ok (R3 x y z).
Definition angles (m : mat) (u : angle_unit) : outcome r3 :=
  let* x := angle_of m 0 u in let* y := angle_of m 1 u in let* z := angle_of m 2 u in Ok (R3 x y z).

(** src/lattice_dual.hpp 672-703 on the two stored matrices. *)
Definition to_xyz (real recip : mat) (u : unit) : outcome mat :=
  match u with Angstrom => Ok real | InverseAngstrom => Ok recip | OtherUnit => Throw end.
Definition from_xyz (real recip : mat) (u : unit) : outcome mat :=
  let* m := match u with Angstrom => Ok recip | InverseAngstrom => Ok real | OtherUnit => Throw end in
  Ok (transpose (map_mat (fun x => x / (2 * PI)) m)).
