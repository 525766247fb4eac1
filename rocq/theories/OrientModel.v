(** Model of the rotation to the standard orientation, src/lattice_dual.hpp 17-51, and of the
    vectors that are made with it (404-453). *)
From Coq Require Import Reals ZArith.
From Verif Require Import Base AngleModel LatticeModel.
Local Open Scope outcome_scope.
Local Open Scope R_scope.

(** std::atan2 (without signed zeros). *)
Definition atan2 (y x : R) : R :=
  if ltb 0 x then atan (y / x)
  else if ltb x 0 then (if ltb y 0 then atan (y / x) - PI else atan (y / x) + PI)
  else if ltb 0 y then PI / 2
  else if ltb y 0 then - (PI / 2)
  else 0.
(** src/lattice_dual.hpp 28. *)
Definition arctan (x y : R) : R := if eqb (Rabs x) 0 then 0 else atan2 x y.
(** src/lattice_dual.hpp 17-51. *)
Definition standard_orientation (bv : mat) : mat :=
  let mu := arctan (- e10 bv) (e20 bv) in
  let (c_mu, s_mu) := cos_and_sin mu in
  let nu := arctan (- e20 bv) (e00 bv * c_mu) in
  let (c_nu, s_nu) := cos_and_sin nu in
  let num := e01 bv * s_nu - e11 bv * c_nu * s_mu + e21 bv * c_nu * c_mu in
  let den := e11 bv * c_mu + e21 bv * s_mu in
  let xi := arctan num den in
  let (c_xi, s_xi) := cos_and_sin xi in
  Mat c_nu (s_nu * s_mu) (- s_nu * c_mu)
      (s_xi * s_nu) (c_xi * c_mu - s_xi * c_nu * s_mu) (c_xi * s_mu + s_xi * c_nu * c_mu)
      (c_xi * s_nu) (- s_xi * c_mu - c_xi * c_nu * s_mu) (- s_xi * s_mu + c_xi * c_nu * c_mu).
(** src/lattice_dual.hpp 416-420. *)
Definition upper_triangular (v c s : r3) : outcome mat :=
  let* u := unit_volume c in
  let* f := rdiv (rz v * (rx c - rz c * ry c)) (rz s) in
  let* g := rdiv (rz v * u) (rz s) in
  Ok (Mat (rx v) (ry v * rz c) (rz v * ry c)
          0 (ry v * rz s) f
          0 0 g).
(** src/lattice_dual.hpp 413-423: the vectors that take the place of the old ones. *)
Definition reassemble (old : mat) (v c s : r3) : outcome mat :=
  let* ut := upper_triangular v c s in
  Ok (mul_mat_mat (transpose (standard_orientation old)) ut).
